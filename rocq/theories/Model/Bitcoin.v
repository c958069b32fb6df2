(** examples/bitcoin.rs: a recursive circuit for the cumulative work of a chain of
    Bitcoin block headers, and the program that proves the first ten blocks. *)
From Coq Require Import String Ascii List Bool Arith ZArith.
From Verif Require Import Model.FieldTrait Model.Circuits Model.Num Model.Boolean Model.UInt Model.Sha256
  Model.Curve Model.Threads Model.Util Model.Params Model.Opening Model.Proofs Model.Recursion Model.RecursiveProof Model.Paper.
Import ListNotations.
Open Scope string_scope. Open Scope list_scope. Open Scope cs_scope. Open Scope Z_scope.
Local Notation length := List.length.

(** [l[from..to]]: panics when [to] is past the end *)
Definition slice {F A} (l : list A) (from to : nat) : CS F (list A) :=
  assert_ (to <=? length l)%nat ;;; ret (firstn (to - from) (skipn from l)).

(** [construct_uint! U256]: bitcoin.rs:15-17.  A [U256] is an integer in [0, 2^256);
    its addition panics on overflow.  [from_little_endian] and [to_little_endian]
    of 32 bytes. *)
Definition U256_MAX : Z := 2 ^ 256 - 1.
Fixpoint u256_from_le (bytes : list Z) : Z :=
  match bytes with [] => 0 | b :: bytes => b + 256 * u256_from_le bytes end.
Definition u256_to_le (x : Z) : list Z := map (fun i => Z.shiftr x (8 * Z.of_nat i) mod 256) (seq 0 32).

(** [b.get_value()] of every bit, [Some] when all are known *)
Fixpoint all_values (bits : list Boolean) : option (list bool) :=
  match bits with
  | [] => Some []
  | b :: bits => match bool_value b, all_values bits with Some x, Some xs => Some (x :: xs) | _, _ => None end
  end.
(** The sum of [1 << i] over the bits set: bitcoin.rs:119-126, 139-147.  At most eight
    bits, so a byte does not overflow.  The fold over [Option]s is [Some] exactly when
    all values are known. *)
Definition byte_of_bits (bits : list bool) : Z :=
  fold_left (fun acc '(i, b) => acc + (if (b : bool) then Z.shiftl 1 (Z.of_nat i) else 0)) (enumerate bits) 0.

(** [CompactBits]: bitcoin.rs:93-99 *)
Record CompactBits := mkCompact {
  cb_mantissa : option (list Z); cb_size : option Z;
  cb_mantissa_bits : list Boolean; cb_mantissa_sign_bit : Boolean; cb_size_bits : list Boolean }.

Section Bitcoin.
  Context {F : Field}.
  (** [CS::ONE] *)
  Variable one : Var.

  (** [bytes_to_bits]: bitcoin.rs:19-41.  The only caller gives as many bytes as [len],
      so that [bytes[byte_i]] is in bounds. *)
  Definition bytes_to_bits (data : option (list Z)) (len : nat) : CS F (list Boolean) :=
    mapM (fun '(byte_i, bit_i) =>
      b <- namespace "input bit i j" (bit_alloc (ok_or_missing
             (option_map (fun bytes => Z.testbit (nth byte_i bytes 0) (Z.of_nat bit_i)) data))) ;;
      ret (Is b)) (list_prod (seq 0 len) (seq 0 8)).

  (** The loop of [enforce_equality]: bitcoin.rs:46-53 *)
  Fixpoint equality_lcs (a_lc b_lc : LC F) (coeff : Coeff F) (a b : list Boolean) : LC F * LC F :=
    match a, b with
    | a_bit :: a, b_bit :: b =>
        equality_lcs (lc_add_lc a_lc (bool_lc a_bit one coeff)) (lc_add_lc b_lc (bool_lc b_bit one coeff)) (coeff_double coeff) a b
    | _, _ => (a_lc, b_lc)
    end.
  (** [enforce_equality]: bitcoin.rs:43-55 *)
  Definition enforce_equality (a b : list Boolean) : CS F unit :=
    assert_ (length a =? length b)%nat ;;;
    let '(a_lc, b_lc) := equality_lcs lc_zero lc_zero COne a b in
    enforce_zero (lc_sub_lc a_lc b_lc).

  (** [lc_from_bits]: bitcoin.rs:57-65; the loop is that of [UInt64::lc] *)
  Definition lc_from_bits (bits : list Boolean) : LC F := add_bits_lc one lc_zero COne bits.

  (** [bits_to_num]: bitcoin.rs:67-91 *)
  Definition bits_to_num (bits : list Boolean) : CS F (AllocatedNum F) :=
    let value := fold_left (fun acc b => omap2 (fun acc bit => fadd (fadd acc acc) bit) acc (option_map f_from_bool (bool_value b)))
                   (rev bits) (Some fzero) in
    num <- namespace "num" (num_alloc (ok_or_missing value)) ;;
    enforce_zero (lc_sub_lc (lc_from_bits bits) (num_lc num)) ;;;
    ret num.

  (** [CompactBits::from_header]: bitcoin.rs:102-163 *)
  Definition NBITS_START : nat := 4 + 32 + 32 + 4.
  Definition from_header (bits : list Boolean) : CS F CompactBits :=
    mantissa_bits <- slice bits (8 * NBITS_START) (8 * NBITS_START + 23) ;;
    mantissa_sign_bit <- index bits (8 * NBITS_START + 23) ;;
    size_bits <- slice bits (8 * NBITS_START + 24) (8 * NBITS_START + 32) ;;
    let mantissa := option_map (fun xs => map byte_of_bits (Sha256.chunks 8 xs)) (all_values mantissa_bits) in
    let size := option_map byte_of_bits (all_values size_bits) in
    assert_ (match size with Some s => 4 <=? s | None => true end) ;;;
    ret (mkCompact mantissa size mantissa_bits mantissa_sign_bit size_bits).

  (** The 32 bytes of the target: bitcoin.rs:174-183.  [bytes[size - 1]] panics for a
      size above 32, [size - 3] for one below 3. *)
  Definition target_bytes (mantissa : list Z) (size : Z) : list Z :=
    map (fun i => if (Z.of_nat i =? size - 3) then nth 0 mantissa 0
                  else if (Z.of_nat i =? size - 2) then nth 1 mantissa 0
                  else if (Z.of_nat i =? size - 1) then nth 2 mantissa 0 else 0) (seq 0 32).

  (** One step of the exponentiation: bitcoin.rs:218-261 *)
  Definition pow_step (base : AllocatedNum F) (pow_size : AllocatedNum F) (bit : Boolean) : CS F (AllocatedNum F) :=
    namespace "256^(size - 3) bit i" (
    sq <- namespace "square" (num_mul pow_size pow_size) ;;
    sq_m256 <- namespace "square * 256" (num_mul sq base) ;;
    pow_size <- namespace "conditional select" (num_alloc
      (match bool_value bit, num_value sq, num_value sq_m256 with
       | Some b, Some sq, Some sq_m256 => Ok (if (b : bool) then sq_m256 else sq)
       | _, _, _ => Err AssignmentMissing
       end)) ;;
    '(a_var, b_var, c_var, _) <- multiply "bit * (sq_m256 - sq) = (next - sq)"
      (match bool_value bit, num_value sq, num_value sq_m256, num_value pow_size with
       | Some b, Some sq, Some sq_m256, Some next => Ok (f_from_bool b, fsub sq_m256 sq, fsub next sq)
       | _, _, _, _ => Err AssignmentMissing
       end) ;;
    enforce_zero (lc_sub_v (bool_lc bit one COne) a_var) ;;;
    enforce_zero (lc_sub_v (lc_sub_lc (num_lc sq_m256) (num_lc sq)) b_var) ;;;
    enforce_zero (lc_sub_v (lc_sub_lc (num_lc pow_size) (num_lc sq)) c_var) ;;;
    ret pow_size).

  (** The double-and-add loop over the target's bytes: bitcoin.rs:280-288 *)
  Definition double_and_add (target : list Z) : F :=
    fold_left (fun target_val byte =>
      fold_left (fun target_val i =>
        let target_val := fadd target_val target_val in
        if Z.testbit byte (Z.of_nat i) then fadd target_val fone else target_val) (seq 0 8) target_val)
      (rev target) fzero.

  (** The first half of [CompactBits::unpack], up to the target's bits:
      bitcoin.rs:169-188 *)
  Definition unpack_target (self : CompactBits) : CS F (list Boolean * option (list Z)) :=
    enforce_zero (bool_lc (cb_mantissa_sign_bit self) one COne) ;;;
    target_val <- match cb_mantissa self, cb_size self with
      | Some mantissa, Some size => assert_ ((3 <=? size) && (size <=? 32)) ;;; ret (Some (target_bytes mantissa size))
      | _, _ => ret None
      end ;;
    target <- namespace "target" (bytes_to_bits target_val 32) ;;
    ret (target, target_val).
  (** 256^size: bitcoin.rs:203-261.  [F::CAPACITY >= 249] holds for both fields. *)
  Definition unpack_power (self : CompactBits) : CS F (AllocatedNum F) :=
    base <- namespace "256 TODO make constant" (num_alloc (Ok (f_from_u64 256))) ;;
    enforce_zero (lc_sub_cv (num_lc base) (CFull (f_from_u64 256)) one) ;;;
    assert_ (length (cb_size_bits self) =? 8)%nat ;;;
    b5 <- index (cb_size_bits self) 5 ;; enforce_zero (bool_lc b5 one COne) ;;;
    b6 <- index (cb_size_bits self) 6 ;; enforce_zero (bool_lc b6 one COne) ;;;
    b7 <- index (cb_size_bits self) 7 ;; enforce_zero (bool_lc b7 one COne) ;;;
    pow_size <- namespace "one TODO make constant" (num_alloc (Ok fone)) ;;
    foldM (pow_step base) (skipn 3 (rev (cb_size_bits self))) pow_size.
  (** [CompactBits::unpack]: bitcoin.rs:165-318 *)
  Definition unpack (self : CompactBits) : CS F (list Boolean * option Z) :=
    '(target, target_val) <- unpack_target self ;;
    pow_size <- unpack_power self ;;
    let b_val := option_map (fun size => pow F (f_from_u64 256) (L4 (size - 3) 0 0 0)) (cb_size self) in
    '(a_var, b_var, c_var, _) <- multiply "mantissa * 256^(size - 3) = target"
      (rbind (ok_or_missing (cb_mantissa self)) (fun mantissa =>
       rbind (ok_or_missing b_val) (fun b_val =>
       rbind (ok_or_missing target_val) (fun target =>
       Ok (f_from_u64 (u256_from_le mantissa), b_val, double_and_add target))))) ;;
    let base_pow3 := f_from_u64 0x01000000 in
    '(d_var, e_var, f_var, _) <- multiply "256^(size - 3) * 256^3 = 256^size"
      (rbind (ok_or_missing b_val) (fun b_val =>
       rbind (ok_or_missing (cb_size self)) (fun size =>
       Ok (b_val, base_pow3, pow F (f_from_u64 256) (L4 size 0 0 0))))) ;;
    enforce_zero (lc_sub_v (lc_from_bits (cb_mantissa_bits self)) a_var) ;;;
    enforce_zero (lc_sub_v (lc_from_bits target) c_var) ;;;
    enforce_zero (lc_sub_v (lc_from b_var) d_var) ;;;
    enforce_zero (lc_sub_cv (lc_from e_var) (CFull base_pow3) one) ;;;
    enforce_zero (lc_sub_v (num_lc pow_size) f_var) ;;;
    ret (target, option_map u256_from_le target_val).

  (** [unpack_payload_bits]: bitcoin.rs:346-360 *)
  Definition unpack_payload_bits (payload : list AllocatedBit) : CS F (AllocatedNum F * AllocatedNum F * list Boolean) :=
    let payload := map Is payload in
    height_bits <- slice payload 0 (8 * 4) ;;
    chain_work_bits <- slice payload (8 * 4) (8 * (4 + 32)) ;;
    header_bits <- slice payload (8 * (4 + 32)) (8 * (4 + 32 + 80)) ;;
    height <- namespace "height" (bits_to_num height_bits) ;;
    chain_work <- namespace "chain_work" (bits_to_num chain_work_bits) ;;
    ret (height, chain_work, header_bits).

  (** [sha256d]: bitcoin.rs:362-384 *)
  Definition flip_bytes {A} (data : list A) : list A := flat_map (@rev A) (Sha256.chunks 8 data).
  Definition sha256d (data : list Boolean) : CS F (list Boolean) :=
    mid <- namespace "SHA256(input)" (sha256 one (flip_bytes data)) ;;
    res <- namespace "SHA256(mid)" (sha256 one mid) ;;
    ret (flip_bytes res).

  (** The closures of [block_work_val] and [remainder_val], which are run when the
      target is known: bitcoin.rs:457-471, 488-502.  [None]: an addition overflows. *)
  Definition fe_of_u256 (x : Z) : res F :=
    match f_from_bytes (u256_to_le x) with Some fe => Ok fe | None => Err Unsatisfiable end.
  Definition u256_add (x y : Z) : option Z := if x + y <=? U256_MAX then Some (x + y) else None.
  Definition block_work_of (target : Z) : option (res F) :=
    obind (u256_add target 1) (fun t1 =>
    obind (u256_add ((U256_MAX - target) / t1) 1) (fun work => Some (fe_of_u256 work))).
  Definition remainder_of (target : Z) : option (res F) :=
    obind (u256_add target 1) (fun t1 => Some (fe_of_u256 ((U256_MAX - target) mod t1))).
  Definition from_target (f : Z -> option (res F)) (target_val : option Z) : CS F (res F) :=
    match target_val with None => ret (Err AssignmentMissing) | Some t => unwrap (f t) end.

  (** Four 64-bit limbs: bitcoin.rs:449-454, 480-485, 515-518 *)
  Definition four_limbs (bits : list Boolean) : CS F (list UInt) :=
    mapM (fun i => bs <- slice bits (64 * i) (64 * i + 64) ;; u_from_bits 64 bs) (seq 0 4).
  Definition set_nth {A} (l : list A) (i : nat) (x : A) : list A := firstn i l ++ x :: skipn (S i) l.
  (** u256 x u256 -> u512: bitcoin.rs:526-542 *)
  Definition mul_inner (target_p1_limbs work_limbs : list UInt) (j : nat) (st : list UInt * UInt) (i : nat) : CS F (list UInt * UInt) :=
    let '(w, k) := st in
    t <- index target_p1_limbs i ;;
    x <- index work_limbs j ;;
    wij <- index w (i + j) ;;
    '(t_low, t_high) <- namespace "mul[i, j]" (u64_mul_acc2 one t x wij k) ;;
    ret (set_nth w (i + j) t_low, t_high).
  Definition mul_outer (target_p1_limbs work_limbs : list UInt) (w : list UInt) (j : nat) : CS F (list UInt) :=
    '(w, k) <- foldM (mul_inner target_p1_limbs work_limbs j) (seq 0 4) (w, u_constant 64 0) ;;
    ret (set_nth w (j + 4) k).
  Definition mul_limbs (target_p1_limbs work_limbs w : list UInt) : CS F (list UInt) :=
    namespace "(target + 1) * block_work" (foldM (mul_outer target_p1_limbs work_limbs) (seq 0 4) w).

  (** The heights, the hash of the previous header and that of this one:
      bitcoin.rs:410-424.  The second hash is not used. *)
  Definition header_links (prev_height height : AllocatedNum F) (prev_header_bits header_bits : list Boolean) : CS F unit :=
    enforce_zero (lc_sub_v (lc_sub_lc (num_lc height) (num_lc prev_height)) one) ;;;
    prev_hash_bits <- namespace "SHA256d(prev_header)" (sha256d prev_header_bits) ;;
    prev_hash_field <- slice header_bits 32 (32 + 256) ;;
    namespace "header contains prev_hash" (enforce_equality prev_hash_field prev_hash_bits) ;;;
    namespace "SHA256d(header)" (sha256d header_bits) ;;;
    ret tt.
  (** The work of this block: bitcoin.rs:443-552 *)
  Definition header_work (target : list Boolean) (target_val : option Z) : CS F (AllocatedNum F) :=
    let target_p1_bits := Constant true :: skipn 1 target in
    target_p1_limbs <- four_limbs target_p1_bits ;;
    block_work_val <- from_target block_work_of target_val ;;
    block_work <- namespace "block_work" (num_alloc block_work_val) ;;
    work_bits <- namespace "unpack block_work" (unpack_fe one (n_from block_work)) ;;
    work_limbs <- four_limbs (map Is work_bits) ;;
    remainder_val <- from_target remainder_of target_val ;;
    remainder <- namespace "remainder" (num_alloc remainder_val) ;;
    remainder_bits <- namespace "unpack remainder" (unpack_fe one (n_from remainder)) ;;
    remainder_limbs <- four_limbs (map Is remainder_bits) ;;
    w <- mul_limbs target_p1_limbs work_limbs (remainder_limbs ++ repeat (u_constant 64 0) 4) ;;
    w0 <- index w 0 ;; enforce_zero (u64_lc one w0) ;;;
    w1 <- index w 1 ;; enforce_zero (u64_lc one w1) ;;;
    w2 <- index w 2 ;; enforce_zero (u64_lc one w2) ;;;
    w3 <- index w 3 ;; enforce_zero (u64_lc one w3) ;;;
    w4 <- index w 4 ;; enforce_zero (lc_sub_v (u64_lc one w4) one) ;;;
    w5 <- index w 5 ;; enforce_zero (u64_lc one w5) ;;;
    w6 <- index w 6 ;; enforce_zero (u64_lc one w6) ;;;
    w7 <- index w 7 ;; enforce_zero (u64_lc one w7) ;;;
    ret block_work.
  (** [BitcoinHeaderCircuit::synthesize]: bitcoin.rs:398-558 *)
  Definition bitcoin_synthesize (old_payload new_payload : list AllocatedBit) : CS F unit :=
    '(prev_height, prev_chain_work, prev_header_bits) <- namespace "previous block" (unpack_payload_bits old_payload) ;;
    '(height, chain_work, header_bits) <- namespace "current block" (unpack_payload_bits new_payload) ;;
    header_links prev_height height prev_header_bits header_bits ;;;
    compact <- from_header header_bits ;;
    '(target, target_val) <- namespace "unpack target" (unpack compact) ;;
    block_work <- header_work target target_val ;;
    enforce_zero (lc_sub_lc (lc_sub_lc (num_lc chain_work) (num_lc prev_chain_work)) (num_lc block_work)) ;;;
    ret tt.
End Bitcoin.

(** [hex!]: the bytes written by a string of hexadecimal digits (crate hex_literal) *)
Definition hex_digit (c : ascii) : Z :=
  let n := Z.of_nat (nat_of_ascii c) in if n <=? 57 then n - 48 else n - 87.
Fixpoint hex (s : string) : list Z :=
  match s with
  | String a (String b s) => (16 * hex_digit a + hex_digit b) :: hex s
  | _ => []
  end.

(** [GENESIS_HEADER], [GENESIS_CHAIN_WORK]: bitcoin.rs:321-323 *)
Definition GENESIS_HEADER : list Z := hex "0100000000000000000000000000000000000000000000000000000000000000000000003ba3edfd7a7b12b27ac72c3e67768f617fc81bc3888a51323a9fb8aa4b1e5e4a29ab5f49ffff001d1dac2b7c".
Definition GENESIS_CHAIN_WORK : list Z := hex "0000000000000000000000000000000000000000000000000000000100010001".

(** [u32::to_le_bytes] *)
Definition u32_to_le (x : Z) : list Z := map (fun i => Z.shiftr x (8 * Z.of_nat i) mod 256) (seq 0 4).
(** [pack_payload_bytes]: bitcoin.rs:325-333; [pack_payload_bits]: 335-344 *)
Definition pack_payload_bytes (height : Z) (chain_work header : list Z) : list Z :=
  u32_to_le height ++ rev chain_work ++ header.
Definition pack_payload_bits (height : Z) (chain_work header : list Z) : list bool :=
  flat_map byte_bits (u32_to_le height ++ rev chain_work ++ header).

(** [BitcoinHeaderCircuit]: bitcoin.rs:386-559 *)
Definition bitcoin_circuit {F : Field} : RecursiveCircuit F :=
  mkInner F (pack_payload_bits 0 GENESIS_CHAIN_WORK GENESIS_HEADER) bitcoin_synthesize.
Definition bitcoin_circuits {E1 E2 : Curve} : BothCircuits E1 E2 := mkBoth E1 E2 bitcoin_circuit bitcoin_circuit.

(** The headers and the chain work of [main]: bitcoin.rs:567-591 *)
Definition HEADERS : list (list Z) := map hex [
  "010000006fe28c0ab6f1b372c1a6a246ae63f74f931e8365e15a089c68d6190000000000982051fd1e4ba744bbbe680e1fee14677ba1a3c3540bf7b1cdb606e857233e0e61bc6649ffff001d01e36299";
  "010000004860eb18bf1b1620e37e9490fc8a427514416fd75159ab86688e9a8300000000d5fdcc541e25de1c7a5addedf24858b8bb665c9f36ef744ee42c316022c90f9bb0bc6649ffff001d08d2bd61";
  "01000000bddd99ccfda39da1b108ce1a5d70038d0a967bacb68b6b63065f626a0000000044f672226090d85db9a9f2fbfe5f0f9609b387af7be5b7fbb7a1767c831c9e995dbe6649ffff001d05e0ed6d";
  "010000004944469562ae1c2c74d9a535e00b6f3e40ffbad4f2fda3895501b582000000007a06ea98cd40ba2e3288262b28638cec5337c1456aaf5eedc8e9e5a20f062bdf8cc16649ffff001d2bfee0a9";
  "0100000085144a84488ea88d221c8bd6c059da090e88f8a2c99690ee55dbba4e00000000e11c48fecdd9e72510ca84f023370c9a38bf91ac5cae88019bee94d24528526344c36649ffff001d1d03e477";
  "01000000fc33f596f822a0a1951ffdbf2a897b095636ad871707bf5d3162729b00000000379dfb96a5ea8c81700ea4ac6b97ae9a9312b2d4301a29580e924ee6761a2520adc46649ffff001d189c4c97";
  "010000008d778fdc15a2d3fb76b7122a3b5582bea4f21f5a0c693537e7a03130000000003f674005103b42f984169c7d008370967e91920a6a5d64fd51282f75bc73a68af1c66649ffff001d39a59c86";
  "010000004494c8cf4154bdcc0720cd4a59d9c9b285e4b146d45f061d2b6c967100000000e3855ed886605b6d4a99d5fa2ef2e9b0b164e63df3c4136bebf2d0dac0f1f7a667c86649ffff001d1c4b5666";
  "01000000c60ddef1b7618ca2348a46e868afc26e3efc68226c78aa47f8488c4000000000c997a5e56e104102fa209c6a852dd90660a20b2d9c352423edce25857fcd37047fca6649ffff001d28404f53";
  "010000000508085c47cc849eb80ea905cc7800a3be674ffc57263cf210c59d8d00000000112ba175a1e04b14ba9e7ea5f76ab640affeef5ec98173ac9799a852fa39add320cd6649ffff001d1e2de565"].
Definition CHAIN_WORK : list (list Z) := map hex [
  "0000000000000000000000000000000000000000000000000000000200020002";
  "0000000000000000000000000000000000000000000000000000000300030003";
  "0000000000000000000000000000000000000000000000000000000400040004";
  "0000000000000000000000000000000000000000000000000000000500050005";
  "0000000000000000000000000000000000000000000000000000000600060006";
  "0000000000000000000000000000000000000000000000000000000700070007";
  "0000000000000000000000000000000000000000000000000000000800080008";
  "0000000000000000000000000000000000000000000000000000000900090009";
  "0000000000000000000000000000000000000000000000000000000a000a000a";
  "0000000000000000000000000000000000000000000000000000000b000b000b"].

(** [CycleStep]: bitcoin.rs:561-564 *)
Inductive CycleStep := StepA (old_proof : option (RecursiveProof Ec0 Ec1)) | StepB (old_proof : option (RecursiveProof Ec1 Ec0)).

Open Scope out_scope.
(** Create a proof from [old] and verify it: bitcoin.rs:611-623 and 632-644.  Timing and
    printing are left out; the two calls may be run on different machines. *)
Definition bitcoin_step {E1 E2 : Curve} (cy : Cycle E1 E2) (M M' : Machine) (fuel : nat) (P1 : Params E1) (P2 : Params E2)
    (old : option (RecursiveProof E2 E1)) (input : list Z) : outcome (RecursiveProof E1 E2) :=
  proof <~ out_unwrap (create_proof cy M fuel P1 P2 old bitcoin_circuits input) ;;
  ok <~ out_unwrap (verify cy M' proof P1 P2 bitcoin_circuits) ;;
  _ <~ out_assert ok ;;
  Done proof.
(** The loop over the blocks: bitcoin.rs:602-650; [i] is the height, [M (2i)] and
    [M (2i + 1)] the machines of the two calls. *)
Fixpoint bitcoin_loop (M : nat -> Machine) (fuel : nat) (params0 : Params Ec0) (params1 : Params Ec1)
    (step : CycleStep) (i : nat) (blocks : list (list Z * list Z)) : outcome unit :=
  match blocks with
  | [] => Done tt
  | (header, chain_work) :: blocks =>
      let input := pack_payload_bytes (Z.of_nat i) chain_work header in
      step <~ match step with
        | StepA old_proof =>
            proof <~ bitcoin_step cycle10 (M (2 * i)%nat) (M (2 * i + 1)%nat) fuel params1 params0 old_proof input ;;
            Done (StepB (Some proof))
        | StepB old_proof =>
            proof <~ bitcoin_step cycle01 (M (2 * i)%nat) (M (2 * i + 1)%nat) fuel params0 params1 old_proof input ;;
            Done (StepA (Some proof))
        end ;;
      bitcoin_loop M fuel params0 params1 step (S i) blocks
  end.
(** [main]: bitcoin.rs:566-651 *)
Definition bitcoin_main (M : nat -> Machine) (fuel : nat) (rng0 rng1 : nat -> nat -> list Z) : outcome unit :=
  params0 <~ params_new (C := Ec0) rng0 fuel 22 ;;
  params1 <~ params_new (C := Ec1) rng1 fuel 22 ;;
  bitcoin_loop M fuel params0 params1 (StepA None) 1 (combine HEADERS CHAIN_WORK).

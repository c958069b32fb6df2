(** Bitcoin block headers, their proof of work, and what a step of the header circuit
    of examples/bitcoin.rs relates. *)
From Coq Require Import List ZArith Bool.
From Verif Require Import Spec.BoolSpec Spec.Sha256Spec.
Import ListNotations.
Open Scope Z_scope. Open Scope list_scope.

(** The bits of a payload, least significant bit of each byte first: the height (4
    bytes), the chain work (32 bytes), both little endian, and the header (80 bytes). *)
Definition field_of (start len : nat) (bits : list bool) : list bool := firstn len (skipn start bits).
Definition height_of (payload : list bool) : Z := bits_val (field_of 0 32 payload).
Definition chain_work_of (payload : list bool) : Z := bits_val (field_of 32 256 payload).
Definition header_of (payload : list bool) : list bool := field_of 288 640 payload.
(** The header: version (4 bytes), hash of the previous block (32), Merkle root (32),
    time (4), nBits (4), nonce (4).  nBits is a mantissa of 23 bits, its sign and a size. *)
Definition prev_hash_of (header : list bool) : list bool := field_of 32 256 header.
Definition mantissa_of (header : list bool) : Z := bits_val (field_of 576 23 header).
Definition negative_target (header : list bool) : bool := nth 599 header false.
Definition size_of (header : list bool) : Z := bits_val (field_of 600 8 header).

(** SHA-256 applied twice, on bits in the order of the payload (FIPS 180-4 has the most
    significant bit of a byte first). *)
Fixpoint bytes_of {A} (n : nat) (bits : list A) : list (list A) :=
  match n with O => [] | S n => firstn 8 bits :: bytes_of n (skipn 8 bits) end.
Definition reverse_bytes {A} (bits : list A) : list A := flat_map (@rev A) (bytes_of (length bits / 8) bits).
Definition double_sha256 (bits : list bool) : list bool := reverse_bytes (SHA256 (SHA256 (reverse_bytes bits))).

(** Bitcoin's rules for the target and the work of a block (of size at least 4, when the
    target is a multiple of 256): the expected number of hashes is 2^256 / (target + 1). *)
Definition target_of (header : list bool) : Z := mantissa_of header * 256 ^ (size_of header - 3).
Definition work_of (header : list bool) : Z := 2 ^ 256 / (target_of header + 1).
(** A block that extends another one: what a verifier would like to know *)
Record extends_chain (old new : list bool) : Prop := {
  ec_height : height_of new = height_of old + 1;
  ec_hash : prev_hash_of (header_of new) = double_sha256 (header_of old);
  ec_sign : negative_target (header_of new) = false;
  ec_size : 4 <= size_of (header_of new) < 32;
  ec_work : chain_work_of new = chain_work_of old + work_of (header_of new) }.

(** What the circuit over the field of order [p] relates instead.  [start], [target],
    [work] and [rest] are the prover's. *)
Record step_data := mkStep { sd_start : Z; sd_target : Z; sd_work : Z; sd_rest : Z }.
Record circuit_step (p : Z) (old new : list bool) (d : step_data) : Prop := {
  cs_height : height_of new = height_of old + 1;
  cs_hash : bits_val (prev_hash_of (header_of new)) mod p = bits_val (double_sha256 (header_of old)) mod p;
  cs_sign : negative_target (header_of new) = false;
  cs_size : size_of (header_of new) < 32;
  cs_start : 0 <= sd_start d < p;
  cs_target : 0 <= sd_target d < 2 ^ 256 /\
    (sd_target d * 256 ^ 3) mod p = (mantissa_of (header_of new) * (sd_start d ^ 32 * 256 ^ size_of (header_of new))) mod p;
  cs_rest : 0 <= sd_rest d < 2 ^ 256;
  cs_work : 0 <= sd_work d < 2 ^ 256 /\
    (* the target with its lowest bit set *)
    (2 * (sd_target d / 2) + 1) * sd_work d + sd_rest d = 2 ^ 256;
  cs_chain : chain_work_of new mod p = (chain_work_of old + sd_work d) mod p }.

(** The bytes of the mantissa read the same in both directions.  Their third byte is
    completed by the sign. *)
Definition mirrored (header : list bool) : Prop :=
  rev (field_of 576 8 header) = field_of 576 8 header /\ rev (field_of 584 8 header) = field_of 584 8 header /\
  rev (field_of 592 8 header) = field_of 592 8 header.

(** The size and the mantissa of the new header are in the range in which the program
    computes a target and the work for it without panicking. *)
Definition has_target (payload : list bool) : Prop :=
  4 <= size_of (header_of payload) < 32 /\ mantissa_of (header_of payload) <> 0.
(** A block that extends another one and that the program can prove: Bitcoin's rules, and
    the bytes of the mantissa read the same in both directions. *)
Definition provable_block (old new : list bool) : Prop :=
  extends_chain old new /\ mantissa_of (header_of new) <> 0 /\ mirrored (header_of new).
(** Each payload is provable after the one before it. *)
Fixpoint provable_chain (old : list bool) (payloads : list (list bool)) : Prop :=
  match payloads with
  | [] => True
  | new :: payloads => length new = 928%nat /\ provable_block old new /\ provable_chain new payloads
  end.

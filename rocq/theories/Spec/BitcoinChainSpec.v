(** Payloads and headers of the program examples/bitcoin.rs. *)
From Coq Require Import String List Bool ZArith.
From Verif Require Import Model.FieldTrait Model.Circuits Model.Boolean Model.Bitcoin
  Spec.FieldSpec Spec.FieldLaws Spec.CircuitSpec Spec.BoolSpec Spec.Sha256Spec Spec.BitcoinSpec.
Import ListNotations.
Open Scope nat_scope. Open Scope list_scope.
Local Notation length := List.length.

(** The payloads' wires as in the verifier's run of the circuit: the old payload is not
    known, the new one is. *)
Definition unknown_wires (n : nat) (bs : list bool) : list AllocatedBit := map (fun i => mkBit None (VA (n + i))) (seq 0 (length bs)).
Definition known_wires (n : nat) (bs : list bool) : list AllocatedBit := map (fun i => mkBit (Some (nth i bs false)) (VA (n + i))) (seq 0 (length bs)).
(** Some assignment satisfies the circuit when the payloads' wires hold [ob] and [nb]. *)
Definition accepted (F : Field) (ob nb : list bool) : Prop :=
  let old := unknown_wires 2 ob in let new := known_wires (2 + length ob) nb in
  exists tr o (w : assignment F), w (VA 1) = fone /\ Forall2 (bit_is w) old ob /\ Forall2 (bit_is w) new nb /\
    Exec (bitcoin_synthesize (VA 1) old new) tr (Some (Ok o)) /\ constraints_hold w tr.

(** The same payload with another chain work *)
Definition with_work (work : list bool) (payload : list bool) : list bool := firstn 32 payload ++ work ++ skipn 288 payload.
(** Headers of 80 bytes such that the second names the first as the block before it;
    both have a target, and the mantissa of the second reads the same in both
    directions (without that not even an honest prover succeeds, C66).  Nothing is said
    about their hashes being below the target. *)
Definition header_bits (header : list Z) : list bool := flat_map byte_bits header.
Record linked (prev next : list Z) : Prop := {
  li_prev : length prev = 80; li_next : length next = 80;
  li_target : (4 <= size_of (header_bits prev) < 32)%Z /\ mantissa_of (header_bits prev) <> 0%Z;
  li_target' : (4 <= size_of (header_bits next) < 32)%Z /\ mantissa_of (header_bits next) <> 0%Z;
  li_sign : negative_target (header_bits next) = false;
  li_mirrored : mirrored (header_bits next);
  li_hash : prev_hash_of (header_bits next) = double_sha256 (header_bits prev) }.
(** 32 bytes, most significant first, and their number *)
Definition work_bytes (work : list Z) : Prop := length work = 32 /\ Forall byte work.
Definition work_value (work : list Z) : Z := le_val (rev work).

(** The payloads of a list of blocks, from a height on *)
Fixpoint payloads_from (i : nat) (blocks : list (list Z * list Z)) : list (list Z) :=
  match blocks with
  | [] => []
  | (header, work) :: blocks => (u32_to_le (Z.of_nat i) ++ rev work ++ header) :: payloads_from (S i) blocks
  end.

(** When an honest prover can prove a step of the Bitcoin example, and what it means that
    the programs of the examples ended. *)
From Coq Require Import List ZArith Bool.
From Verif Require Import Model.Circuits Model.FieldInst Model.Curve Model.Threads Model.Util Model.Params Model.Opening Model.Recursion Model.RecursiveProof Model.Paper Model.Bitcoin
  Spec.BoolSpec Spec.Sha256Spec Spec.BitcoinSpec.
Import ListNotations.
Open Scope Z_scope. Open Scope list_scope.

(** Bitcoin's rules for a step, with the hashes and the chain work compared modulo [p],
    and the two further conditions on the mantissa. *)
Record honestly_provable (p : Z) (old new : list bool) : Prop := {
  hp_old : (928 <= length old)%nat;
  hp_new : (928 <= length new)%nat;
  hp_height : height_of new = height_of old + 1;
  hp_hash : bits_val (prev_hash_of (header_of new)) mod p = bits_val (double_sha256 (header_of old)) mod p;
  hp_sign : negative_target (header_of new) = false;
  hp_size : 4 <= size_of (header_of new) < 32;
  hp_mantissa : mantissa_of (header_of new) <> 0;
  hp_mirrored : mirrored (header_of new);
  hp_work : chain_work_of new mod p = (chain_work_of old + work_of (header_of new)) mod p }.

(** Every block got a proof, made from the proof before it on the other curve, and the
    verifier accepted it.  [M (2 i)] and [M (2 i + 1)] are the machines of the two calls. *)
Inductive all_verified (M : nat -> Machine) (fuel : nat) (P0 : Params Ec0) (P1 : Params Ec1) : CycleStep -> nat -> list (list Z * list Z) -> Prop :=
| av_end step i : all_verified M fuel P0 P1 step i []
| av_a old i header work blocks proof :
    create_proof cycle10 (M (2 * i)%nat) fuel P1 P0 old bitcoin_circuits (pack_payload_bytes (Z.of_nat i) work header) = Done (Ok proof) ->
    verify cycle10 (M (2 * i + 1)%nat) proof P1 P0 bitcoin_circuits = Done (Ok true) ->
    all_verified M fuel P0 P1 (StepB (Some proof)) (S i) blocks -> all_verified M fuel P0 P1 (StepA old) i ((header, work) :: blocks)
| av_b old i header work blocks proof :
    create_proof cycle01 (M (2 * i)%nat) fuel P0 P1 old bitcoin_circuits (pack_payload_bytes (Z.of_nat i) work header) = Done (Ok proof) ->
    verify cycle01 (M (2 * i + 1)%nat) proof P0 P1 bitcoin_circuits = Done (Ok true) ->
    all_verified M fuel P0 P1 (StepA (Some proof)) (S i) blocks -> all_verified M fuel P0 P1 (StepB old) i ((header, work) :: blocks).
(** The five proofs of examples/paper.rs *)
Definition paper_verified (M : nat -> Machine) (fuel : nat) (P0 : Params Ec0) (P1 : Params Ec1) : Prop :=
  exists p1 p2 p3 p4 p5,
    create_proof cycle10 (M 0%nat) fuel P1 P0 None my_circuits [0] = Done (Ok p1) /\ verify cycle10 (M 1%nat) p1 P1 P0 my_circuits = Done (Ok true) /\
    create_proof cycle01 (M 2%nat) fuel P0 P1 (Some p1) my_circuits [0] = Done (Ok p2) /\ verify cycle01 (M 3%nat) p2 P0 P1 my_circuits = Done (Ok true) /\
    create_proof cycle10 (M 4%nat) fuel P1 P0 (Some p2) my_circuits [0] = Done (Ok p3) /\ verify cycle10 (M 5%nat) p3 P1 P0 my_circuits = Done (Ok true) /\
    create_proof cycle01 (M 6%nat) fuel P0 P1 (Some p3) my_circuits [0] = Done (Ok p4) /\ verify cycle01 (M 7%nat) p4 P0 P1 my_circuits = Done (Ok true) /\
    create_proof cycle10 (M 8%nat) fuel P1 P0 (Some p4) my_circuits [0] = Done (Ok p5) /\ verify cycle10 (M 9%nat) p5 P1 P0 my_circuits = Done (Ok true).

(** examples/paper.rs: an application of the recursion whose circuit ignores its payload
    (10 * 10 = 100), and the program that makes and verifies five proofs, each from the
    one before it. *)
From Coq Require Import String List Bool Arith ZArith.
From Verif Require Import Model.FieldTrait Model.Circuits Model.Boolean Model.Curve Model.Threads Model.Util Model.Params
  Model.Opening Model.Proofs Model.Recursion Model.RecursiveProof.
Import ListNotations.
Open Scope list_scope. Open Scope out_scope.

(** [MyCircuit]: paper.rs:17-38.  [assert_eq!] of the lengths, then one multiplication
    gate (its variables are dropped). *)
Definition my_circuit {F : Field} : RecursiveCircuit F :=
  mkInner F (repeat false 8) (fun _ old_payload new_payload =>
    bind (assert_ (List.length old_payload =? 8)%nat) (fun _ =>
    bind (assert_ (List.length new_payload =? 8)%nat) (fun _ =>
    bind (multiply "10^2" (Ok (f_from_u64 10, f_from_u64 10, f_from_u64 100))) (fun _ => ret tt)))).
Definition my_circuits {E1 E2 : Curve} : BothCircuits E1 E2 := mkBoth E1 E2 my_circuit my_circuit.

(** [Result::unwrap] *)
Definition out_unwrap {A} (o : outcome (res A)) : outcome A :=
  r <~ o ;; match r with Ok a => Done a | Err _ => Panicked end.
(** Create a proof from [old] and verify it: paper.rs:50-60, and the same again four
    times.  Timing and printing are left out; every call may be run on another machine. *)
Definition paper_step {E1 E2 : Curve} (cy : Cycle E1 E2) (M M' : Machine) (fuel : nat) (P1 : Params E1) (P2 : Params E2)
    (old : option (RecursiveProof E2 E1)) : outcome (RecursiveProof E1 E2) :=
  proof <~ out_unwrap (create_proof cy M fuel P1 P2 old my_circuits [0%Z]) ;;
  ok <~ out_unwrap (verify cy M' proof P1 P2 my_circuits) ;;
  _ <~ out_assert ok ;;
  Done proof.
(** The five proofs: paper.rs:46-128; [M i] is the machine of the i-th call. *)
Definition paper_proofs (M : nat -> Machine) (fuel : nat) (params0 : Params Ec0) (params1 : Params Ec1) : outcome unit :=
  proof1 <~ paper_step cycle10 (M 0) (M 1) fuel params1 params0 None ;;
  proof2 <~ paper_step cycle01 (M 2) (M 3) fuel params0 params1 (Some proof1) ;;
  proof3 <~ paper_step cycle10 (M 4) (M 5) fuel params1 params0 (Some proof2) ;;
  proof4 <~ paper_step cycle01 (M 6) (M 7) fuel params0 params1 (Some proof3) ;;
  _ <~ paper_step cycle10 (M 8) (M 9) fuel params1 params0 (Some proof4) ;;
  Done tt.
(** [main]: paper.rs:40-129; [fuel] bounds the searches for challenges and for random
    points. *)
Definition paper_main (M : nat -> Machine) (fuel : nat) (rng0 rng1 : nat -> nat -> list Z) : outcome unit :=
  params0 <~ params_new (C := Ec0) rng0 fuel 22 ;;
  params1 <~ params_new (C := Ec1) rng1 fuel 22 ;;
  paper_proofs M fuel params0 params1.

(** The size of a circuit: how many wires and linear constraints it adds to a system. *)
From Coq Require Import ZArith List Bool Arith.
From Verif Require Import Model.FieldTrait Model.Circuits Model.Boolean Model.Recursion Spec.SystemSpec.
Open Scope Z_scope.

Section Size.
  Context {F : Field}.
  (** The wires taken so far: every gate has two that can be allocated (its third is
      their product), and the right one of the last may still be free. *)
  Definition taken (s : layout F) : Z :=
    2 * Z.of_nat (l_gates s) - match l_half s with Some _ => 1 | None => 0 end.
  Definition lines (s : layout F) : Z := Z.of_nat (List.length (l_lcs s)).
  (** Whenever it is laid out, after whatever, it takes at most [w] wires and adds at
      most [l] linear constraints. *)
  Definition adds_at_most {A} (p : CS F A) (w l : Z) : Prop :=
    forall ran s s' a, lay ran p s = Some (s', Ok a) -> taken s' <= taken s + w /\ lines s' <= lines s + l.
  (** The application's circuit adds at most this much, for payloads of the right
      lengths (that of the initial payload, and [len] bits). *)
  Definition inner_adds_at_most (c : RecursiveCircuit F) (len : nat) (w l : Z) : Prop :=
    forall one old new, List.length old = List.length (base_payload c) -> List.length new = len ->
    adds_at_most (inner_synthesize c one old new) w l.
End Size.

(** The Rescue permutation with its parameters as published by the code's
    constants (13 elements, 10 double rounds, fifth powers, linear layer
    [(i+1)*j], round constants 1, master key 0), and the duplex sponge of rate 12
    on top of an arbitrary permutation. *)
From Coq Require Import List Bool Arith.
From Verif Require Import Model.FieldTrait Model.Circuits Model.Num Spec.CircuitSpec Spec.NumSpec.
From Verif Require Model.Rescue Model.RescueGadget.
Import ListNotations.
Open Scope nat_scope.

Section Permutation.
  Context {F : Field}.

  (** [x] added to itself [n] times *)
  Fixpoint times (n : nat) (x : F) : F :=
    match n with O => fzero | S n => fadd x (times n x) end.
  Fixpoint sum (xs : list F) : F :=
    match xs with [] => fzero | x :: xs => fadd x (sum xs) end.
  Definition at_ (s : list F) (i : nat) : F := nth i s fzero.

  (** Even rounds take fifth roots, odd rounds take fifth powers. *)
  Definition sbox (r : nat) (x y : F) : Prop := if Nat.even r then pow5 y = x else y = pow5 x.

  (** One round from [s] to [s'] with key [k]. *)
  Definition round_spec (r : nat) (k s s' : list F) : Prop :=
    exists mid, length mid = 13 /\
    (forall i, i < 13 -> sbox r (at_ s i) (at_ mid i)) /\
    s' = map (fun i => fadd (sum (map (fun j => times ((i + 1) * j) (at_ mid j)) (seq 0 13))) (at_ k i))
             (seq 0 13).

  Definition ones : list F := repeat fone 13.
  (** The round keys: the same rounds started from the zero master key. *)
  Definition key_schedule_spec (keys : nat -> list F) : Prop :=
    keys 0 = ones /\ forall r, r < 20 -> round_spec r ones (keys r) (keys (S r)).

  (** [s'] is the permutation of [s]. *)
  Definition rescue_permutation (s s' : list F) : Prop :=
    exists keys states, key_schedule_spec keys /\
    states 0 = map (fun i => fadd (at_ s i) (at_ (keys 0) i)) (seq 0 13) /\
    (forall r, r < 20 -> round_spec r (keys (S r)) (states r) (states (S r))) /\
    s' = states 20.
End Permutation.

Section Sponge.
  Context {F : Field}.
  Variable P : list F -> list F.

  (** A rate-12, width-13 duplex sponge.  [Taking buf]: [buf] is waiting to be
      absorbed; [Giving k]: [k] outputs of the current state were handed out. *)
  Inductive mode := Taking (buf : list F) | Giving (k : nat).
  Record duplex := mkDuplex { inner : list F; phase : mode }.
  Definition duplex_new : duplex := mkDuplex (repeat fzero 13) (Taking []).

  (** Add a block, padded with ones up to the rate; the thirteenth element
      (the capacity) is not touched. *)
  Definition mix (s block : list F) : list F :=
    map (fun i => if i <? 12 then fadd (at_ s i) (nth i block fone) else at_ s i) (seq 0 13).

  Definition duplex_absorb (d : duplex) (x : F) : duplex :=
    match phase d with
    | Taking buf =>
        if length buf <? 12 then mkDuplex (inner d) (Taking (buf ++ [x]))
        else mkDuplex (P (mix (inner d) buf)) (Taking [x])
    | Giving _ => mkDuplex (inner d) (Taking [x])
    end.
  Definition duplex_squeeze (d : duplex) : F * duplex :=
    match phase d with
    | Taking buf => let s := P (mix (inner d) buf) in (at_ s 0, mkDuplex s (Giving 1))
    | Giving k =>
        if k <? 12 then (at_ (inner d) k, mkDuplex (inner d) (Giving (S k)))
        else let s := P (mix (inner d) []) in (at_ s 0, mkDuplex s (Giving 1))
    end.

  (** A history: [Some x] absorbs [x], [None] squeezes.  The outputs, in order. *)
  Fixpoint duplex_run (d : duplex) (h : list (option F)) : list F :=
    match h with
    | [] => []
    | Some x :: h => duplex_run (duplex_absorb d x) h
    | None :: h => let (y, d) := duplex_squeeze d in y :: duplex_run d h
    end.

  (** The state after absorbing [xs] into a fresh sponge and asking for output:
      full blocks of 12, then the (padded) rest. *)
  Fixpoint absorb_blocks (s : list F) (blocks : list (list F)) : list F :=
    match blocks with [] => s | b :: blocks => absorb_blocks (P (mix s b)) blocks end.
End Sponge.
Arguments duplex F : clear implicits.
Arguments mode F : clear implicits.

Section Code.
  Context {F : Field}.
  (** The same histories against the code's native sponge ([None]: the model ran
      out of loop iterations). *)
  Fixpoint native_run (s : Rescue.Rescue F) (h : list (option F)) : option (list F) :=
    match h with
    | [] => Some []
    | Some x :: h => native_run (Rescue.absorb s x) h
    | None :: h =>
        match Rescue.squeeze s with
        | None => None
        | Some (y, s) => option_map (cons y) (native_run s h)
        end
    end.

  (** The number of elements absorbed since the last squeeze ([n]: before [h]). *)
  Fixpoint since_squeeze (n : nat) (h : list (option F)) : nat :=
    match h with [] => n | Some _ :: h => since_squeeze (S n) h | None :: h => since_squeeze 0 h end.

  (** A circuit using the sponge: between two operations it runs arbitrary
      circuit code of its own, which sees the numbers squeezed so far and decides
      whether to absorb a number or to squeeze.  It returns the squeezed numbers
      and the operations performed. *)
  Definition client := list (list (AllocatedNum F) -> CS F (option (Num F))).
  Open Scope cs_scope.
  Fixpoint gadget_run (one : Var) (g : RescueGadget.RescueGadget F) (outs : list (AllocatedNum F))
      (log : list (option (Num F))) (cl : client)
    : CS F (list (AllocatedNum F) * list (option (Num F))) :=
    match cl with
    | [] => ret (outs, log)
    | f :: cl =>
        o <- f outs ;;
        match o with
        | Some n =>
            g <- RescueGadget.gadget_absorb one g n ;;
            gadget_run one g outs (log ++ [Some n]) cl
        | None =>
            '(y, g) <- RescueGadget.gadget_squeeze one g ;;
            gadget_run one g (outs ++ [y]) (log ++ [None]) cl
        end
    end.
  Definition sponge_circuit (one : Var) (cl : client) :=
    g <- RescueGadget.gadget_new one ;; gadget_run one g [] [] cl.
End Code.
Arguments client F : clear implicits.

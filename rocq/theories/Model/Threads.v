(** The scoped threads of crate crossbeam-utils, as the library uses them
    (src/util.rs:21-29, 54-121, 178-189, 296-321; src/proofs.rs:1139-1164).

    Every [scope.spawn] in the library moves into the thread one mutable chunk
    ([iter_mut], [chunks_mut]) that no other thread can reach, plus shared
    read-only data; the threads of a scope are all spawned, then joined.  So a
    thread is its chunk and the list of the writes it will do, and an execution is
    determined by the order in which the scheduler interleaves the writes of the
    threads.  Simplification: spawning and the reads of shared data are not steps
    (they commute with everything), and [scope] cannot fail to create a thread. *)
From Coq Require Import List Arith.
Import ListNotations.

Section Threads.
  Context {S : Type}.
  Record thread := mkThread { t_chunk : S; t_todo : list (S -> S) }.

  (** one write of one thread *)
  Definition t_step (t : thread) : thread :=
    match t_todo t with
    | [] => t
    | f :: fs => mkThread (f (t_chunk t)) fs
    end.
  Fixpoint at_index {A} (i : nat) (f : A -> A) (l : list A) : list A :=
    match i, l with
    | _, [] => []
    | 0, x :: l => f x :: l
    | Datatypes.S i, x :: l => x :: at_index i f l
    end.
  (** [thread::scope]: the scheduler lets threads [sched] move in turn, then the
      join at the end of the scope waits for whatever is left.  [sched] is
      arbitrary, so every complete interleaving is covered. *)
  Definition scope (sched : list nat) (ts : list thread) : list S :=
    map (fun t => fold_left (fun s f => f s) (t_todo t) (t_chunk t))
        (fold_left (fun ts i => at_index i t_step ts) sched ts).
End Threads.
Arguments thread S : clear implicits.

(** [slice.chunks(n)], [chunks_mut(n)] of the Rust standard library, n > 0
    (n = 0 panics: the callers test it). *)
Fixpoint chunks_fuel {A} (fuel n : nat) (l : list A) : list (list A) :=
  match fuel, l with
  | Datatypes.S fuel, _ :: _ => firstn n l :: chunks_fuel fuel n (skipn n l)
  | _, _ => []
  end.
Definition chunks {A} (n : nat) (l : list A) : list (list A) := chunks_fuel (length l) n l.

(** The slice after the threads that own its chunks are done: chunks that no
    thread was given ([zip] with a shorter list) keep their contents. *)
Definition unchunk {A} (n : nat) (l : list A) (done : list (list A)) : list A :=
  concat (done ++ skipn (length done) (chunks n l)).

(** The machine: [num_cpus::get()] (crate num_cpus; taken to be the same at every
    call), the scheduler's choices in the successive scopes of a function, and
    [(f64::from(n as u32)).ln().ceil() as usize] (util.rs:70). *)
Record Machine := {
  cpus : nat;
  sched : nat -> list nat;
  ln_ceil : nat -> nat
}.

(** src/gadgets/sha256.rs *)
From Coq Require Import String List Bool ZArith.
From Verif Require Import Model.FieldTrait Model.Circuits Model.Boolean Model.UInt.
Import ListNotations.
Open Scope string_scope.
Open Scope list_scope.
Open Scope Z_scope.
Open Scope cs_scope.

(** [ROUND_CONSTANTS]: sha256.rs:5-15 *)
Definition ROUND_CONSTANTS : list Z := [
    0x428a2f98; 0x71374491; 0xb5c0fbcf; 0xe9b5dba5; 0x3956c25b; 0x59f111f1; 0x923f82a4; 0xab1c5ed5;
    0xd807aa98; 0x12835b01; 0x243185be; 0x550c7dc3; 0x72be5d74; 0x80deb1fe; 0x9bdc06a7; 0xc19bf174;
    0xe49b69c1; 0xefbe4786; 0x0fc19dc6; 0x240ca1cc; 0x2de92c6f; 0x4a7484aa; 0x5cb0a9dc; 0x76f988da;
    0x983e5152; 0xa831c66d; 0xb00327c8; 0xbf597fc7; 0xc6e00bf3; 0xd5a79147; 0x06ca6351; 0x14292967;
    0x27b70a85; 0x2e1b2138; 0x4d2c6dfc; 0x53380d13; 0x650a7354; 0x766a0abb; 0x81c2c92e; 0x92722c85;
    0xa2bfe8a1; 0xa81a664b; 0xc24b8b70; 0xc76c51a3; 0xd192e819; 0xd6990624; 0xf40e3585; 0x106aa070;
    0x19a4c116; 0x1e376c08; 0x2748774c; 0x34b0bcb5; 0x391c0cb3; 0x4ed8aa4a; 0x5b9cca4f; 0x682e6ff3;
    0x748f82ee; 0x78a5636f; 0x84c87814; 0x8cc70208; 0x90befffa; 0xa4506ceb; 0xbef9a3f7; 0xc67178f2].

(** [IV]: sha256.rs:17-20 *)
Definition IV : list Z := [
    0x6a09e667; 0xbb67ae85; 0x3c6ef372; 0xa54ff53a; 0x510e527f; 0x9b05688c; 0x1f83d9ab; 0x5be0cd19].

(** [slice::chunks] *)
Definition chunks {A} (n : nat) (l : list A) : list (list A) :=
  map (fun i => firstn n (skipn (n * i) l)) (seq 0 ((length l + (n - 1)) / n)).

(** [get_sha256_iv]: sha256.rs:69-71 *)
Definition get_sha256_iv : list UInt := map (u_constant 32) IV.

(** [Maybe]: sha256.rs:120-123 *)
Inductive Maybe := Deferred (v : list UInt) | Concrete (v : UInt).

(** The eight working variables: sha256.rs:142-149 *)
Record State := mkState { s_a : Maybe; s_b : UInt; s_c : UInt; s_d : UInt;
                          s_e : Maybe; s_f : UInt; s_g : UInt; s_h : UInt }.

Section Sha256.
  Context {F : Field}.
  Variable one : Var.

  (** [v[i]]: indexing panics out of bounds *)
  Definition index {A} (l : list A) (i : nat) : CS F A := unwrap (nth_error l i).

  (** One iteration of the message schedule: sha256.rs:92-116 *)
  Definition w_extension (w : list UInt) (i : nat) : CS F (list UInt) :=
    namespace "w extension i" (
    w15 <- index w (i - 15) ;;
    s0 <- namespace "first xor for s0" (u32_xor (u32_rotr w15 7) (u32_rotr w15 18)) ;;
    s0 <- namespace "second xor for s0" (u32_xor s0 (u32_shr w15 3)) ;;
    w2 <- index w (i - 2) ;;
    s1 <- namespace "first xor for s1" (u32_xor (u32_rotr w2 17) (u32_rotr w2 19)) ;;
    s1 <- namespace "second xor for s1" (u32_xor s1 (u32_shr w2 10)) ;;
    w16 <- index w (i - 16) ;;
    w7 <- index w (i - 7) ;;
    tmp <- namespace "computation of w[i]" (u32_addmany one [w16; s0; w7; s1]) ;;
    ret (w ++ [tmp])).

  (** [Maybe::compute]: sha256.rs:125-139.  A concrete value ignores [others]. *)
  Definition compute (s : string) (self : Maybe) (others : list UInt) : CS F UInt :=
    namespace s (
    match self with
    | Concrete v => ret v
    | Deferred v => u32_addmany one (v ++ others)
    end).

  (** One compression round: sha256.rs:151-209 *)
  Definition compression_round (w : list UInt) (st : State) (i : nat) : CS F State :=
    namespace "compression round i" (
    new_e <- compute "deferred e computation" (s_e st) [] ;;
    s1 <- namespace "first xor for s1" (u32_xor (u32_rotr new_e 6) (u32_rotr new_e 11)) ;;
    s1 <- namespace "second xor for s1" (u32_xor s1 (u32_rotr new_e 25)) ;;
    ch <- namespace "ch" (u32_sha256_ch one new_e (s_f st) (s_g st)) ;;
    k <- index ROUND_CONSTANTS i ;;
    wi <- index w i ;;
    let temp1 := [s_h st; s1; ch; u_constant 32 k; wi] in
    new_a <- compute "deferred a computation" (s_a st) [] ;;
    s0 <- namespace "first xor for s0" (u32_xor (u32_rotr new_a 2) (u32_rotr new_a 13)) ;;
    s0 <- namespace "second xor for s0" (u32_xor s0 (u32_rotr new_a 22)) ;;
    maj <- namespace "maj" (u32_sha256_maj one new_a (s_b st) (s_c st)) ;;
    let temp2 := [s0; maj] in
    ret {| s_a := Deferred (temp1 ++ temp2); s_b := new_a; s_c := s_b st; s_d := s_c st;
           s_e := Deferred (temp1 ++ [s_d st]); s_f := new_e; s_g := s_f st; s_h := s_g st |}).

  (** [sha256_compression_function]: sha256.rs:73-259 *)
  Definition sha256_compression_function (input : list Boolean) (cur : list UInt) : CS F (list UInt) :=
    assert_ (length input =? 512)%nat ;;;
    assert_ (length cur =? 8)%nat ;;;
    w <- mapM u32_from_bits_be (chunks 32 input) ;;
    w <- foldM w_extension (seq 16 48) w ;;
    assert_ (length w =? 64)%nat ;;;
    h0 <- index cur 0 ;; h1 <- index cur 1 ;; h2 <- index cur 2 ;; h3 <- index cur 3 ;;
    h4 <- index cur 4 ;; h5 <- index cur 5 ;; h6 <- index cur 6 ;; h7 <- index cur 7 ;;
    st <- foldM (compression_round w) (seq 0 64)
      {| s_a := Concrete h0; s_b := h1; s_c := h2; s_d := h3;
         s_e := Concrete h4; s_f := h5; s_g := h6; s_h := h7 |} ;;
    n0 <- compute "deferred h0 computation" (s_a st) [h0] ;;
    n1 <- namespace "new h1" (u32_addmany one [h1; s_b st]) ;;
    n2 <- namespace "new h2" (u32_addmany one [h2; s_c st]) ;;
    n3 <- namespace "new h3" (u32_addmany one [h3; s_d st]) ;;
    n4 <- compute "deferred h4 computation" (s_e st) [h4] ;;
    n5 <- namespace "new h5" (u32_addmany one [h5; s_f st]) ;;
    n6 <- namespace "new h6" (u32_addmany one [h6; s_g st]) ;;
    n7 <- namespace "new h7" (u32_addmany one [h7; s_h st]) ;;
    ret [n0; n1; n2; n3; n4; n5; n6; n7].

  (** [sha256_block_no_padding]: sha256.rs:22-36 *)
  Definition sha256_block_no_padding (input : list Boolean) : CS F (list Boolean) :=
    assert_ (length input =? 512)%nat ;;;
    cur <- sha256_compression_function input get_sha256_iv ;;
    ret (flat_map u_into_bits_be cur).

  (** The padding loop, sha256.rs:51-53, run at most [fuel] times; 512 suffice. *)
  Fixpoint pad_zeros (fuel : nat) (padded : list Boolean) : list Boolean :=
    match fuel with
    | O => padded
    | S fuel =>
        if ((length padded + 64) mod 512 =? 0)%nat then padded
        else pad_zeros fuel (padded ++ [Constant false])
    end.
  Definition sha256_pad (input : list Boolean) : list Boolean :=
    let plen := Z.of_nat (length input) in
    let padded := pad_zeros 512 (input ++ [Constant true]) in
    padded ++ map (fun i => Constant (Z.testbit plen (Z.of_nat i))) (rev (seq 0 64)).

  (** [sha256]: sha256.rs:38-67 *)
  Definition sha256 (input : list Boolean) : CS F (list Boolean) :=
    assert_ (length input mod 8 =? 0)%nat ;;;
    let padded := sha256_pad input in
    assert_ (length padded mod 512 =? 0)%nat ;;;
    cur <- foldM (fun cur block => namespace "block i" (sha256_compression_function block cur))
             (chunks 512 padded) get_sha256_iv ;;
    ret (flat_map u_into_bits_be cur).
End Sha256.

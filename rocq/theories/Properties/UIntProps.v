(** C33-C35: 32-bit words, 64-bit multiply-accumulate, SHA-256. *)
From Coq Require Import String List Bool ZArith Lia.
From Verif Require Import Model.FieldTrait Model.FieldInst Model.Circuits Model.Boolean Model.UInt Model.Sha256
  Spec.FieldLaws Spec.CircuitSpec Spec.BoolSpec Spec.UIntSpec Spec.Sha256Spec Spec.FieldSpec
  Proofs.UIntP Proofs.UIntArithP Proofs.Sha256P Proofs.HonestP Proofs.WordP Proofs.FpFq.
Import ListNotations.
Open Scope Z_scope. Open Scope list_scope.

(** [word_ok w n u z]: in the assignment [w] the bits of the word [u] are the
    [n]-bit number [z] (and its hint does not contradict its constant bits);
    [word_has]: and every hint says so (Spec/UIntSpec.v). *)
Theorem C33_words : forall (F : Field) p v, FieldLaws F p v ->
  forall (w : assignment F) (one : Var), w one = fone ->
  (* soundness: any hints, any satisfying assignment *)
  (forall (a b c : UInt) (x y z : Z) (k : nat) (ops : list UInt) (zs : list Z),
   word_ok w 32 a x -> word_ok w 32 b y -> word_ok w 32 c z -> Forall2 (word_ok w 32) ops zs ->
   word_ok w 32 (u32_rotr a k) (ROTR (Z.of_nat (k mod 32)) x) /\
   word_ok w 32 (u32_shr a k) (SHR (Z.of_nat (k mod 32)) x) /\
   sound w (u32_xor a b) (fun o => word_ok w 32 o (Z.lxor x y)) /\
   sound w (u32_sha256_ch one a b c) (fun o => word_ok w 32 o (CH x y z)) /\
   sound w (u32_sha256_maj one a b c) (fun o => word_ok w 32 o (MAJ x y z)) /\
   sound w (u32_addmany one ops) (fun o => word_ok w 32 o (ADD zs))) /\
  (* completeness *)
  (forall (a b c : UInt) (x y z : Z) (k : nat) (ops : list UInt) (zs : list Z),
   word_has w 32 a x -> word_has w 32 b y -> word_has w 32 c z -> Forall2 (word_has w 32) ops zs ->
   word_has w 32 (u32_rotr a k) (ROTR (Z.of_nat (k mod 32)) x) /\
   word_has w 32 (u32_shr a k) (SHR (Z.of_nat (k mod 32)) x) /\
   complete w (u32_xor a b) (fun o => word_has w 32 o (Z.lxor x y)) /\
   complete w (u32_sha256_ch one a b c) (fun o => word_has w 32 o (CH x y z)) /\
   complete w (u32_sha256_maj one a b c) (fun o => word_has w 32 o (MAJ x y z)) /\
   ((2 <= length ops <= 10)%nat -> complete w (u32_addmany one ops) (fun o => word_has w 32 o (ADD zs)))) /\
  (* building words, 32 or 64 bits *)
  (forall (n : nat) (val : option Z) (z : Z) (bits : list Boolean) (bs : list bool),
   ((forall z, val = Some z -> in_word n z) -> sound w (u_alloc n val) (fun u => exists z, word_ok w n u z)) /\
   (in_word n z -> complete w (u_alloc n (Some z)) (fun u => word_has w n u z) /\
                   word_has w n (u_constant n z) z) /\
   (Forall2 (bool_is w) bits bs ->
    sound w (u_from_bits n bits) (fun u => u_bits u = bits /\ word_ok w n u (bits_val bs)) /\
    sound w (u32_from_bits_be bits) (fun u => word_ok w 32 u (bits_val (rev bs)))) /\
   (Forall2 (bool_has w) bits bs ->
    (length bits = n -> complete w (u_from_bits n bits) (fun u => u_bits u = bits /\ word_has w n u (bits_val bs))) /\
    (length bits = 32%nat -> complete w (u32_from_bits_be bits) (fun u => word_has w 32 u (bits_val (rev bs)))))).
Proof.
  intros F p v FL w one w1. split; [|split].
  - intros a b c x y z k ops zs Ha Hb Hc HO.
    split; [apply rotr_ok, Ha|]. split; [apply shr_ok, Ha|].
    split; [eapply xor_sound; eassumption|]. split; [eapply ch_sound; eassumption|].
    split; [eapply maj_sound; eassumption|]. eapply addmany_sound; eassumption.
  - intros a b c x y z k ops zs Ha Hb Hc HO.
    split; [apply rotr_has, Ha|]. split; [apply shr_has, Ha|].
    split; [eapply xor_complete; eassumption|]. split; [eapply ch_complete; eassumption|].
    split; [eapply maj_complete; eassumption|]. intro. eapply addmany_complete; eassumption.
  - intros n val z bits bs. split; [|split; [|split]].
    + intro H. eapply u_alloc_sound; eassumption.
    + intro H. split; [eapply u_alloc_complete; eassumption|apply u_constant_has, H].
    + intro H. split; [apply u_from_bits_sound, H|apply u32_from_bits_be_sound, H].
    + intro H. split; intro HL; [apply u_from_bits_complete; assumption|apply u32_from_bits_be_complete; assumption].
Qed.
Print Assumptions C33_words.

(** Non-vacuity: the word [z] on allocated wires [VA n], ..., [VA (n+31)]. *)
Definition wires_of (n : nat) (bs : list bool) : list Boolean :=
  map (fun i => Is (mkBit (Some (nth i bs false)) (VA (n + i)))) (seq 0 (length bs)).
Definition wires_assignment (n : nat) (bs : list bool) : assignment Fp :=
  fun x => match x with VA k => if (k <? n)%nat then fone else of_bit (nth (k - n) bs false) | _ => fone end.
Lemma wires_have n bs w : extends (n + length bs) (wires_assignment n bs) w ->
  Forall2 (bool_has w) (wires_of n bs) bs.
Proof.
  intro H.
  assert (G : Forall (fun i => i < length bs)%nat (seq 0 (length bs))).
  { apply Forall_forall. intros i Hi. apply in_seq in Hi. lia. }
  assert (E : bs = map (fun i => nth i bs false) (seq 0 (length bs))).
  { apply nth_ext with (d := false) (d' := nth (length bs) bs false).
    - rewrite map_length, seq_length. reflexivity.
    - intros i Hi. rewrite (map_nth (fun i => nth i bs false) (seq 0 (length bs)) (length bs)).
      rewrite seq_nth by exact Hi. reflexivity. }
  rewrite E at 2. clear E. unfold wires_of. induction G as [|i js Hi _ IH]; cbn [map]; [constructor|constructor; [|exact IH]].
  split; [|reflexivity]. simpl. unfold bit_is. cbn [bit_var]. rewrite H.
  - unfold wires_assignment. destruct (Nat.ltb_spec (n + i) n); [lia|]. f_equal. f_equal. lia.
  - intros k Ek. injection Ek as <-. lia.
Qed.
Lemma wires_one n bs w : (1 < n)%nat -> extends (n + length bs) (wires_assignment n bs) w -> w (VA 1) = fone.
Proof.
  intros Hn H. rewrite H.
  - unfold wires_assignment. destruct (Nat.ltb_spec 1 n); [reflexivity|lia].
  - intros k E. injection E as <-. lia.
Qed.
(** Two allocated copies of 0xdeadbeef really are added modulo 2^32. *)
Example C33_nonvacuous : exists tr o (w : assignment Fp),
  let a := mkU (wires_of 2 (bits_of 32 0xdeadbeef)) (Some 0xdeadbeef) in
  Exec (u32_addmany (VA 1) [a; a]) tr (Some (Ok o)) /\ constraints_hold w tr /\
  word_has w 32 a 0xdeadbeef /\ word_has w 32 o 0xbd5b7dde.
Proof.
  set (bs := bits_of 32 0xdeadbeef). set (a := mkU (wires_of 2 bs) (Some 0xdeadbeef)).
  assert (HA : forall w', extends (2 + length bs) (wires_assignment 2 bs) w' -> word_has w' 32 a 0xdeadbeef).
  { intros w' Hw. split; [split; reflexivity || discriminate|]. split; [exact (wires_have 2 bs w' Hw)|reflexivity]. }
  destruct (complete_runs (u32_addmany (VA 1) [a; a]) (2 + length bs) (wires_assignment 2 bs)
    (fun w o => word_has w 32 o (ADD [0xdeadbeef; 0xdeadbeef]))) as (tr & o & w & H1 & H2 & H3 & H4).
  - intros w' Hw. apply (addmany_complete Fp_laws).
    + apply (wires_one 2 bs); [repeat constructor|exact Hw].
    + simpl; lia.
    + constructor; [apply HA; exact Hw|]. constructor; [apply HA; exact Hw|constructor].
  - exists tr, o, w. split; [exact H1|]. split; [exact H2|]. split; [exact (HA w H3)|exact H4].
Qed.

Theorem C34_mul_acc2 : forall (F : Field) p v, FieldLaws F p v ->
  forall (w : assignment F) (one : Var), w one = fone ->
  forall (ua ub uc ud : UInt) (a b c d : Z),
  (word_ok w 64 ua a -> word_ok w 64 ub b -> word_ok w 64 uc c -> word_ok w 64 ud d ->
   sound w (u64_mul_acc2 one ua ub uc ud) (fun '(lo, hi) => exists zl zh,
     word_ok w 64 lo zl /\ word_ok w 64 hi zh /\ zl + 2 ^ 64 * zh = a * b + c + d)) /\
  (word_has w 64 ua a -> word_has w 64 ub b -> word_has w 64 uc c -> word_has w 64 ud d ->
   complete w (u64_mul_acc2 one ua ub uc ud) (fun '(lo, hi) => exists zl zh,
     word_has w 64 lo zl /\ word_has w 64 hi zh /\ zl + 2 ^ 64 * zh = a * b + c + d)).
Proof.
  intros F p v FL w one w1 ua ub uc ud a b c d. split; intros Ha Hb Hc Hd.
  - eapply mul_acc2_sound; eassumption.
  - eapply mul_acc2_complete; eassumption.
Qed.
Print Assumptions C34_mul_acc2.
(** The largest operands: (2^64-1)^2 + 2 (2^64-1) = 2^128 - 1. *)
Example C34_nonvacuous : exists tr lo hi (w : assignment Fp),
  let a := mkU (wires_of 2 (bits_of 64 (2 ^ 64 - 1))) (Some (2 ^ 64 - 1)) in
  Exec (u64_mul_acc2 (VA 1) a a a a) tr (Some (Ok (lo, hi))) /\ constraints_hold w tr /\
  word_has w 64 a (2 ^ 64 - 1) /\ exists zl zh, word_has w 64 lo zl /\ word_has w 64 hi zh /\
  zl + 2 ^ 64 * zh = 2 ^ 128 - 1.
Proof.
  set (bs := bits_of 64 (2 ^ 64 - 1)). set (a := mkU (wires_of 2 bs) (Some (2 ^ 64 - 1))).
  assert (HA : forall w', extends (2 + length bs) (wires_assignment 2 bs) w' -> word_has w' 64 a (2 ^ 64 - 1)).
  { intros w' Hw. split; [split; reflexivity || discriminate|]. split; [exact (wires_have 2 bs w' Hw)|reflexivity]. }
  destruct (complete_runs (u64_mul_acc2 (VA 1) a a a a) (2 + length bs) (wires_assignment 2 bs)
    (fun w '(lo, hi) => exists zl zh, word_has w 64 lo zl /\ word_has w 64 hi zh /\
       zl + 2 ^ 64 * zh = (2 ^ 64 - 1) * (2 ^ 64 - 1) + (2 ^ 64 - 1) + (2 ^ 64 - 1)))
    as (tr & [lo hi] & w & H1 & H2 & H3 & H4).
  - intros w' Hw. apply (mul_acc2_complete Fp_laws); try (apply HA; exact Hw).
    apply (wires_one 2 bs); [repeat constructor|exact Hw].
  - exists tr, lo, hi, w. split; [exact H1|]. split; [exact H2|]. split; [exact (HA w H3)|].
    destruct H4 as (zl & zh & H4 & H5 & H6). exists zl, zh. split; [exact H4|]. split; [exact H5|].
    rewrite H6. reflexivity.
Qed.

(** [SHA256] is FIPS 180-4 on bit lists (Spec/Sha256Spec.v). *)
Theorem C35_sha256 : forall (F : Field) p v, FieldLaws F p v ->
  forall (w : assignment F) (one : Var), w one = fone ->
  forall (input : list Boolean) (bs : list bool),
  (Forall2 (bool_is w) input bs ->
   sound w (sha256 one input) (fun o => Forall2 (bool_is w) o (SHA256 bs)) /\
   sound w (sha256_block_no_padding one input)
     (fun o => Forall2 (bool_is w) o (digest_bits (hash_block H0 bs)))) /\
  (Forall2 (bool_has w) input bs ->
   ((length input mod 8 = 0)%nat ->
    complete w (sha256 one input) (fun o => Forall2 (bool_has w) o (SHA256 bs))) /\
   (length input = 512%nat ->
    complete w (sha256_block_no_padding one input)
      (fun o => Forall2 (bool_has w) o (digest_bits (hash_block H0 bs))))).
Proof.
  intros F p v FL w one w1 input bs. split; intro H; split.
  - exact (sha256_sound FL one w w1 input bs H).
  - exact (block_sound FL one w w1 input bs H).
  - intro HL. exact (sha256_complete FL one w w1 input bs HL H).
  - intro HL. exact (block_complete FL one w w1 input bs HL H).
Qed.
Print Assumptions C35_sha256.

(** The test vectors of FIPS 180-4 on the specification. *)
Example SHA256_abc : bits_val (rev (SHA256 (string_bits "abc"))) =
  0xba7816bf8f01cfea414140de5dae2223b00361a396177a9cb410ff61f20015ad.
Proof. vm_compute. reflexivity. Qed.
Example SHA256_two_blocks :
  bits_val (rev (SHA256 (string_bits "abcdbcdecdefdefgefghfghighijhijkijkljklmklmnlmnomnopnopq"))) =
  0x248d6a61d20638b8e5c026930c3e6039a33ce45964ff2167f6ecedd419db06c1.
Proof. vm_compute. reflexivity. Qed.
(** The circuit run on allocated wires holding "abc". *)
Example C35_nonvacuous : exists tr o (w : assignment Fp) bs,
  let input := wires_of 2 (string_bits "abc") in
  Exec (sha256 (VA 1) input) tr (Some (Ok o)) /\ constraints_hold w tr /\
  Forall2 (bool_has w) input (string_bits "abc") /\ Forall2 (bool_has w) o bs /\
  bits_val (rev bs) = 0xba7816bf8f01cfea414140de5dae2223b00361a396177a9cb410ff61f20015ad.
Proof.
  set (bs := string_bits "abc").
  destruct (complete_runs (sha256 (VA 1) (wires_of 2 bs)) (2 + length bs) (wires_assignment 2 bs)
    (fun w o => Forall2 (bool_has w) o (SHA256 bs))) as (tr & o & w & H1 & H2 & H3 & H4).
  - intros w' Hw. apply (sha256_complete Fp_laws).
    + apply (wires_one 2 bs); [repeat constructor|exact Hw].
    + unfold wires_of. rewrite map_length, seq_length. reflexivity.
    + exact (wires_have 2 bs w' Hw).
  - exists tr, o, w, (SHA256 bs). split; [exact H1|]. split; [exact H2|].
    split; [exact (wires_have 2 bs w H3)|]. split; [exact H4|]. exact SHA256_abc.
Qed.

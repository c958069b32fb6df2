(** C29-C31: bits, booleans, bit decomposition. *)
From Coq Require Import String List Bool ZArith.
From Verif Require Import Model.FieldTrait Model.FieldInst Model.Circuits Model.Num Model.Boolean
  Model.Synthesis Model.Dev Spec.FieldLaws Spec.CircuitSpec Spec.NumSpec Spec.BoolSpec Spec.FieldSpec
  Proofs.UnpackP Proofs.FpFq.
Import ListNotations.
Open Scope nat_scope.

(** [bit_is w b x]: the wire of [b] carries 1 or 0 according to [x]; [bit_has]: and
    the value hint is [x] (Spec/BoolSpec.v). *)
Theorem C29_allocated_bits : forall (F : Field) p v, FieldLaws F p v ->
  forall (w : assignment F) (one : Var), w one = fone ->
  forall (val : res bool) (a b : AllocatedBit) (x y : bool),
  (sound w (bit_alloc val) (fun o => exists z, bit_is w o z) /\
   sound w (bit_check a) (fun _ => exists z, bit_is w a z)) /\
  (val = Ok x -> complete w (bit_alloc val) (fun o => bit_has w o x) /\
                 complete w (bit_alloc_input_unchecked val) (fun o => bit_has w o x)) /\
  (bit_has w a x -> complete w (bit_check a) (fun _ => True)) /\
  bit_has w (bit_one one) true /\
  (bit_is w a x -> bit_is w b y ->
   sound w (bit_and a b) (fun o => bit_is w o (x && y)) /\
   sound w (bit_xor a b) (fun o => bit_is w o (xorb x y)) /\
   sound w (bit_and_not one a b) (fun o => bit_is w o (x && negb y)) /\
   sound w (bit_nor one a b) (fun o => bit_is w o (negb (x || y)))) /\
  (bit_has w a x -> bit_has w b y ->
   complete w (bit_and a b) (fun o => bit_has w o (x && y)) /\
   complete w (bit_xor a b) (fun o => bit_has w o (xorb x y)) /\
   complete w (bit_and_not one a b) (fun o => bit_has w o (x && negb y)) /\
   complete w (bit_nor one a b) (fun o => bit_has w o (negb (x || y)))).
Proof. exact @allocated_bits. Qed.
Print Assumptions C29_allocated_bits.

(** Any mixture of allocated, negated and constant booleans. *)
Theorem C30_booleans : forall (F : Field) p v, FieldLaws F p v ->
  forall (w : assignment F) (one : Var), w one = fone ->
  forall (a b c : Boolean) (x y z : bool),
  (bool_is w a x -> bool_is w b y -> bool_is w c z ->
   bool_is w (bool_not a) (negb x) /\
   (forall k, lc_val w (bool_lc a one k) = fmul (coeff_val k) (of_bit x)) /\
   sound w (bool_xor a b) (fun o => bool_is w o (xorb x y)) /\
   sound w (bool_and one a b) (fun o => bool_is w o (x && y)) /\
   sound w (bool_enforce_equal one a b) (fun _ => x = y) /\
   sound w (bool_sha256_ch one a b c) (fun o => bool_is w o (Ch x y z)) /\
   sound w (bool_sha256_maj one a b c) (fun o => bool_is w o (Maj x y z))) /\
  (bool_has w a x -> bool_has w b y -> bool_has w c z ->
   bool_has w (bool_not a) (negb x) /\
   complete w (bool_xor a b) (fun o => bool_has w o (xorb x y)) /\
   complete w (bool_and one a b) (fun o => bool_has w o (x && y)) /\
   (x = y -> complete w (bool_enforce_equal one a b) (fun _ => True)) /\
   complete w (bool_sha256_ch one a b c) (fun o => bool_has w o (Ch x y z)) /\
   complete w (bool_sha256_maj one a b c) (fun o => bool_has w o (Maj x y z))).
Proof. exact @boolean_ops. Qed.
Print Assumptions C30_booleans.

(** A circuit allocating two bits and using every gadget is satisfied by the
    honest witness: the hypotheses above are met by a real run. *)
Definition bool_circuit (x y claim : bool) (one : Var) : CS Fp unit :=
  bind (bit_alloc (Ok x)) (fun a => bind (bit_alloc (Ok y)) (fun b =>
  bind (bool_xor (Is a) (Not b)) (fun c =>
  bind (bool_sha256_ch one (Is a) (Not b) c) (fun d =>
  bind (bool_sha256_maj one d c (Is a)) (fun e =>
  bool_enforce_equal one e (Constant claim)))))).
Example C30_nonvacuous :
  match is_satisfied (bool_circuit true false true) [], is_satisfied (bool_circuit true false false) [] with
  | Some SatTrue, Some (SatErr _) => True | _, _ => False end.
Proof. vm_compute. exact I. Qed.

(** [bits_val bs]: the number with bits [bs], least significant first. *)
Theorem C31_unpack_fe : forall (F : Field) p v, FieldLaws F p v ->
  forall (one : Var) (w : assignment F), w one = fone ->
  forall num : Num F,
  sound w (unpack_fe one num) (fun bits => exists bs,
    length bits = 256 /\ Forall2 (bit_is w) bits bs /\ (bits_val bs mod p = v (n_val w num))%Z) /\
  (n_ok w num -> complete w (unpack_fe one num) (fun bits => exists bs,
    length bits = 256 /\ Forall2 (bit_has w) bits bs /\ bits_val bs = v (n_val w num))).
Proof.
  intros F p v FL one w w1 num. split; [exact (unpack_fe_sound FL one w w1 num)|exact (unpack_fe_complete FL one w w1 num)].
Qed.
Print Assumptions C31_unpack_fe.

(** The decomposition is not unique: for every value [x] some execution on the
    honest hints accepts every 256-bit string congruent to [x], in particular
    two different ones. *)
Theorem C31_accepted_decompositions : forall (F : Field) p v, FieldLaws F p v ->
  forall x : F, exists num tr bits,
  n_value num = Some x /\ Exec (unpack_fe (VA 1) num) tr (Some (Ok bits)) /\
  forall bs, length bs = 256 -> (bits_val bs mod p = v x)%Z ->
  exists w, w (VA 1) = fone /\ n_val w num = x /\ constraints_hold w tr /\ Forall2 (bit_is w) bits bs.
Proof. exact @unpack_fe_not_unique. Qed.
Print Assumptions C31_accepted_decompositions.
Theorem C31_canonical_refuted : forall (F : Field) p v, FieldLaws F p v ->
  forall x : F, exists num tr bits w w',
  n_value num = Some x /\ Exec (unpack_fe (VA 1) num) tr (Some (Ok bits)) /\
  w (VA 1) = fone /\ w' (VA 1) = fone /\ n_val w num = x /\ n_val w' num = x /\
  constraints_hold w tr /\ constraints_hold w' tr /\
  map (fun b => w (bit_var b)) bits <> map (fun b => w' (bit_var b)) bits.
Proof. exact @unpack_fe_second. Qed.
Print Assumptions C31_canonical_refuted.

(** Both halves of [C31_unpack_fe] are met: for every [x] there is an execution
    with honest hints and an assignment satisfying it. *)
Example C31_nonvacuous : exists num tr bits (w : assignment Fp),
  n_ok w num /\ w (VA 1) = fone /\ Exec (unpack_fe (VA 1) num) tr (Some (Ok bits)) /\ constraints_hold w tr.
Proof.
  destruct (unpack_fe_second Fp_laws fone) as (num & tr & bits & w & w' & H1 & H2 & H3 & _ & H5 & _ & H7 & _).
  exists num, tr, bits, w. repeat split; auto. unfold n_ok. rewrite H1, H5. reflexivity.
Qed.

(** C50, C51, C57: the byte strings that become public inputs of the recursive
    verification circuit (src/recursion.rs), its helper gadgets, and its check of
    deferred data.  [same_low], [small], [full_parts], [half_parts],
    [encodes_deferred], [sign], [with_signs] and [challenge_bits] are in
    Spec/RecursionSpec.v; [sound] and [complete] in Spec/CircuitSpec.v. *)
From Coq Require Import ZArith List Bool Arith Lia.
From Verif Require Import Model.FieldTrait Model.FieldInst Model.Circuits Model.Num Model.Boolean Model.Curve Model.Util Model.Rescue Model.RescueGadget
  Model.Params Model.Opening Model.Proofs Model.Recursion
  Spec.FieldSpec Spec.FieldLaws Spec.CircuitSpec Spec.NumSpec Spec.BoolSpec Spec.CurveSpec Spec.CurveLaws Spec.UtilSpec Spec.RecursionSpec
  Proofs.FpFq Proofs.CurveInst Proofs.HonestP Proofs.ZtoF Proofs.ExampleP Proofs.ProverTop Proofs.UnpackP Proofs.RecursionP Proofs.EncodeP Proofs.RecursionGlue
  Properties.UIntProps Properties.ProverProps.
Import ListNotations.
Open Scope nat_scope. Open Scope list_scope.
Notation represents := CurveSpec.represents.

(** C50: the lengths of the encodings depend only on the numbers of challenges; *)
Theorem C50_leftovers_length : forall C r, halo_curve C r -> forall L : Leftovers C,
  length (leftovers_to_bytes L) = 144 + 16 * length (challenges_sq_packed_new L).
Proof. intros C r [|]; [exact (leftovers_len Ec0_laws)|exact (leftovers_len Ec1_laws)]. Qed.
Theorem C50_deferred_length : forall F p v, FieldLaws F p v -> forall D : Deferred F, length (deferred_to_bytes D) =
  448 + 16 * (length (d_challenges_sq_packed_old D) + length (d_challenges_sq_packed_new D)).
Proof. intros F p v FL. exact (deferred_len p v FL). Qed.
(** ... the bytes of leftovers with valid points determine the two points and the
    lower 128 bits of [y_new] and of every challenge, and nothing more; *)
Theorem C50_leftovers : forall C r, halo_curve C r -> forall a b : Leftovers C,
  valid (s_new_commitment a) -> valid (g_new a) -> valid (s_new_commitment b) -> valid (g_new b) ->
  leftovers_to_bytes a = leftovers_to_bytes b <->
  same_point (s_new_commitment a) (s_new_commitment b) /\ same_point (g_new a) (g_new b) /\
  Forall2 same_low (y_new a :: challenges_sq_packed_new a) (y_new b :: challenges_sq_packed_new b).
Proof. intros C r [|]; [exact (leftovers_inj Ec0_laws)|exact (leftovers_inj Ec1_laws)]. Qed.
(** ... those of a deferred value with a given number of old challenges determine
    its twelve full parts and the lower 128 bits of the others, and nothing more; *)
Theorem C50_deferred : forall F p v, FieldLaws F p v -> forall D E : Deferred F,
  length (d_challenges_sq_packed_old D) = length (d_challenges_sq_packed_old E) ->
  deferred_to_bytes D = deferred_to_bytes E <->
  full_parts D = full_parts E /\ Forall2 same_low (half_parts D) (half_parts E).
Proof. intros F p v FL. exact (deferred_inj p v FL). Qed.
(** ... which is everything if those are below 2^128, as all challenges are; *)
Theorem C50_small : forall F p v, FieldLaws F p v -> forall l l' : list F,
  Forall small l -> Forall small l' -> Forall2 same_low l l' <-> l = l'.
Proof. intros F p v FL. exact (smalls_same p v FL). Qed.
(** ... and then the bits of the bytes are the encoding the circuit reads (C57). *)
Theorem C50_bits : forall F p v, FieldLaws F p v -> forall k (D : Deferred F),
  length (d_challenges_sq_packed_old D) = k -> length (d_challenges_sq_packed_new D) = k ->
  Forall small (half_parts D) -> encodes_deferred p v k D (flat_map byte_bits (deferred_to_bytes D)).
Proof. intros F p v FL. exact (encodes_bytes p v FL). Qed.
(** Without that bound the encoding is ambiguous. *)
Theorem C50_injective_refuted : forall C r, halo_curve C r -> exists a b : Leftovers C,
  s_new_commitment a = s_new_commitment b /\ g_new a = g_new b /\ valid (g_new a) /\ valid (s_new_commitment a) /\
  challenges_sq_packed_new a = challenges_sq_packed_new b /\ y_new a <> y_new b /\ leftovers_to_bytes a = leftovers_to_bytes b.
Proof.
  intros C r [|]; [apply (leftovers_ambiguous Ec0_laws)|apply (leftovers_ambiguous Ec1_laws)]; reflexivity.
Qed.
(** The dummy deferred values have small challenges. *)
Example C50_nonvacuous : exists D : Deferred Fp, deferred_dummy 5 = Some D /\
  encodes_deferred p_modulus Fp_val 5 D (flat_map byte_bits (deferred_to_bytes D)).
Proof.
  destruct (C49_dummy_deferred Ec0 _ halo_ec0 5 ltac:(lia)) as (D & E & _). exists D. split; [exact E|].
  destruct (dummy_small Fp_laws 5 D E) as (H1 & H2 & H3). exact (C50_bits _ _ _ Fp_laws 5 D H1 H2 H3).
Qed.

(** C51: two numbers, or two bit strings of equal length, are equal unless the
    base case bit is set; nothing else is forced. *)
Theorem C51_equal_numbers : forall F p v, FieldLaws F p v -> forall one (w : assignment F), w one = fone ->
  forall bc b (x y : Combination F),
  (bit_is w bc b -> sound w (num_equal_unless_base_case one bc x y) (fun _ => b = true \/ comb_val w x = comb_val w y)) /\
  (bit_has w bc b -> comb_ok w x -> comb_ok w y -> (b = false -> comb_val w x = comb_val w y) ->
   complete w (num_equal_unless_base_case one bc x y) (fun _ => True)).
Proof.
  intros F p v FL one w w1 bc b x y. split; [exact (num_equal_sound FL one w w1 bc b x y)|exact (num_equal_complete FL one w w1 bc b x y)].
Qed.
Theorem C51_equal_bits : forall F p v, FieldLaws F p v -> forall one (w : assignment F), w one = fone ->
  forall bc b l r xs ys,
  (bit_is w bc b -> Forall2 (bit_is w) l xs -> Forall2 (bit_is w) r ys ->
   sound w (equal_unless_base_case one bc l r) (fun _ => b = true \/ xs = ys)) /\
  (bit_has w bc b -> Forall2 (bit_has w) l xs -> Forall2 (bit_has w) r ys -> length l = length r -> (b = false -> xs = ys) ->
   complete w (equal_unless_base_case one bc l r) (fun _ => True)).
Proof.
  intros F p v FL one w w1 bc b l r xs ys.
  split; [exact (equal_unless_sound FL one w w1 bc b l r xs ys)|exact (equal_unless_complete FL one w w1 bc b l r xs ys)].
Qed.
(** A number read from bits, and the bits of an element of another field. *)
Theorem C51_scalar_bits : forall F p v, FieldLaws F p v -> forall (w : assignment F) bits bs,
  (Forall2 (bit_is w) bits bs ->
   sound w (obtain_scalar_from_bits bits) (fun n => v (num_val w n) = (bits_val bs mod p)%Z)) /\
  (Forall2 (bit_has w) bits bs ->
   complete w (obtain_scalar_from_bits bits) (fun n => num_ok w n /\ v (num_val w n) = (bits_val bs mod p)%Z)).
Proof.
  intros F p v FL w bits bs. pose proof (v_fz (fl_ops _ _ _ FL)) as V. split; intro H.
  - intros tr a E HC. rewrite (obtain_scalar_sound FL w bits bs H tr a E HC). apply V.
  - intros tr a E HC. destruct (obtain_scalar_complete FL w bits bs H tr a E HC) as (n & H1 & H2 & H3 & H4).
    exists n. split; [exact H1|]. split; [exact H2|]. split; [exact H3|]. rewrite H4. apply V.
Qed.
Theorem C51_witness_bits : forall F p v, FieldLaws F p v -> forall F2 p2 v2, FieldLaws F2 p2 v2 -> forall (w : assignment F) (x : F2),
  sound w (witness_bits_from_fe x) (fun bits => length bits = 256 /\ exists bs, Forall2 (bit_is w) bits bs) /\
  complete w (witness_bits_from_fe x) (fun bits => exists bs, Forall2 (bit_has w) bits bs /\ length bs = 256 /\ bits_val bs = v2 x).
Proof.
  intros F p v FL F2 p2 v2 FL2 w x. destruct (fe_bits_val FL2 x) as [HL HV]. split.
  - rewrite <- HL. apply (witness_bits_sound FL w x).
  - intros tr r E HC. destruct (witness_bits_complete FL (VA 1) w x tr r E HC) as (bits & H1 & H2 & H3).
    exists bits. split; [exact H1|]. split; [exact H2|]. exists (fe_bits x). auto.
Qed.
(** The scalar of a challenge and the folded powers are those of the native code. *)
Theorem C51_challenge_scalar : forall F p v, FieldLaws F p v -> forall F1 p1 v1, FieldLaws F1 p1 v1 ->
  forall one (w : assignment F), w one = fone -> forall bits bs (ch : F1),
  length bits = 128 -> (v1 ch mod 2 ^ 128)%Z = bits_val bs ->
  (Forall2 (bit_is w) bits bs -> sound w (g_get_challenge_scalar one bits) (fun n => num_val w n = get_challenge_scalar ch)) /\
  (Forall2 (bit_has w) bits bs ->
   complete w (g_get_challenge_scalar one bits) (fun n => num_ok w n /\ num_val w n = get_challenge_scalar ch)).
Proof.
  intros F p v FL F1 p1 v1 FL1 one w w1 bits bs ch HL HV.
  assert (K : forall R : AllocatedBit -> bool -> Prop, Forall2 R bits bs -> bits_scalar (F := F) bs = get_challenge_scalar ch).
  { intros R HF. apply (bits_scalar_native FL1); [|exact HV]. rewrite <- HL. symmetry. exact (Forall2_length _ _ _ HF). }
  split; intro H; rewrite <- (K _ H).
  - exact (challenge_scalar_sound FL one w w1 bits bs H).
  - exact (challenge_scalar_complete FL one w w1 bits bs H HL).
Qed.
Theorem C51_compute_b : forall F p v, FieldLaws F p v -> forall one (w : assignment F), w one = fone ->
  forall x cs cis, let vals := map (num_val w) in
  sound w (g_compute_b one x cs cis) (fun c => compute_b (num_val w x) (vals cs) (vals cis) = Some (comb_val w c)) /\
  (length cs = length cis -> cs <> [] -> num_ok w x -> Forall (num_ok w) cs -> Forall (num_ok w) cis ->
   complete w (g_compute_b one x cs cis)
     (fun c => comb_ok w c /\ compute_b (num_val w x) (vals cs) (vals cis) = Some (comb_val w c))).
Proof.
  intros F p v FL one w w1 x cs cis. split; [exact (compute_b_sound FL one w w1 x cs cis)|exact (compute_b_complete FL one w w1 x cs cis)].
Qed.
(** A challenge after any absorbed numbers ([challenge_circuit] is a new transcript
    gadget, the absorptions and one challenge): an honest prover gets the bits of
    the native challenge.  Any satisfying assignment has the bits made from some
    256-bit number congruent to the squeezed element, which is the element itself
    or the element plus a multiple of the modulus. *)
Theorem C51_challenge_complete : forall F p v, FieldLaws F p v -> forall F2 p2 v2, FieldLaws F2 p2 v2 ->
  forall one (w : assignment F), w one = fone -> forall ns : list (Num F), Forall (n_ok w) ns ->
  complete w (challenge_circuit one ns) (fun bits => exists (c : F2) t bs,
    get_challenge F2 (fold_left absorb (map (n_val w) ns) rescue_new) = Done (c, t) /\
    Forall2 (bit_has w) bits bs /\ length bs = 128 /\ bits_val bs = le_val (f_to_bytes c)).
Proof. intros F p v FL F2 p2 v2 FL2 one w w1 ns. exact (challenge_circuit_complete FL one w w1 ns FL2). Qed.
Theorem C51_challenge_sound : forall F p v, FieldLaws F p v -> forall one (w : assignment F), w one = fone ->
  forall ns : list (Num F),
  sound w (challenge_circuit one ns) (fun bits => exists e t z bs,
    squeeze (fold_left absorb (map (n_val w) ns) rescue_new) = Some (e, t) /\ Forall2 (bit_is w) bits bs /\
    (0 <= z < 2 ^ 256)%Z /\ (z mod p)%Z = v e /\ challenge_bits z bs).
Proof. intros F p v FL one w w1 ns. exact (challenge_circuit_sound FL one w w1 ns). Qed.
(** Honest executions exist: a challenge in Fp after three absorptions. *)
Example C51_nonvacuous : exists tr bits (w : assignment Fp), let ns := repeat (n_constant (@f_from_u64 Fp 7)) 3 in
  Exec (challenge_circuit (VA 1) ns) tr (Some (Ok bits)) /\ constraints_hold w tr /\ w (VA 1) = fone /\
  exists (c : Fq) t bs, get_challenge Fq (fold_left absorb (map (n_val w) ns) rescue_new) = Done (c, t) /\
    Forall2 (bit_has w) bits bs /\ length bs = 128 /\ bits_val bs = le_val (f_to_bytes c).
Proof.
  assert (E1 : forall w, extends 2 (fun _ => @fone Fp) w -> w (VA 1) = fone).
  { intros w H. rewrite H; [reflexivity|]. intros k E. injection E as <-. lia. }
  destruct (complete_runs (challenge_circuit (VA 1) (repeat (n_constant (@f_from_u64 Fp 7)) 3)) 2 (fun _ => @fone Fp)
    (fun w bits => exists (c : Fq) t bs, get_challenge Fq (fold_left absorb (map (n_val w) (repeat (n_constant (@f_from_u64 Fp 7)) 3)) rescue_new) = Done (c, t) /\
      Forall2 (bit_has w) bits bs /\ length bs = 128 /\ bits_val bs = le_val (f_to_bytes c))) as (tr & bits & w & H1 & H2 & H3 & H4).
  - intros w' Hw. apply (C51_challenge_complete _ _ _ Fp_laws _ _ _ Fq_laws); [exact (E1 w' Hw)|].
    apply Forall_forall. intros n Hn. apply repeat_spec in Hn. subst n. apply NumP.n_constant_ok.
  - exists tr, bits, w. split; [exact H1|]. split; [exact H2|]. split; [exact (E1 w H3)|exact H4].
Qed.

(** C57: the circuit's check of deferred data.  Any satisfying assignment makes the
    bits an encoding of a value that [Deferred::verify] accepts up to the sign of
    the old claimed inner product and a common sign of the five new ones; honest
    values satisfy it. *)
Theorem C57_sound : forall F p v, FieldLaws F p v -> forall one (w : assignment F), w one = fone ->
  forall k bits bs, k <= 64 -> Forall2 (bit_is w) bits bs ->
  sound w (verify_deferred one k bits) (fun _ => exists D s t, encodes_deferred p v k D bs /\ sign s /\ sign t /\
    deferred_verify (with_signs s t D) k = Some true).
Proof. intros F p v FL one w w1. exact (deferred_sound FL one w w1). Qed.
Theorem C57_complete : forall F p v, FieldLaws F p v -> forall one (w : assignment F), w one = fone ->
  forall k bits D bs, k <= 64 -> Forall2 (bit_has w) bits bs -> encodes_deferred p v k D bs ->
  deferred_verify D k = Some true -> complete w (verify_deferred one k bits) (fun _ => True).
Proof. intros F p v FL one w w1. exact (deferred_complete FL one w w1). Qed.
(** The encoding determines the value, so there is only one [D] to speak of. *)
Theorem C57_encoding_unique : forall F p v, FieldLaws F p v -> forall k (D E : Deferred F) bs,
  encodes_deferred p v k D bs -> encodes_deferred p v k E bs -> D = E.
Proof. intros F p v FL k D E bs. exact (RecursionDeferredP.encodes_inj FL k D E bs). Qed.
Lemma is_bits (w : assignment Fp) (g : nat -> AllocatedBit) js : forall l,
  Forall2 (bool_has w) (map (fun i => Is (g i)) js) l -> Forall2 (bit_has w) (map g js) l.
Proof.
  induction js as [|j js IH]; intros l HF; inversion HF as [|? ? ? ? Hb HF']; subst; cbn [map]; constructor; [exact Hb|apply IH, HF'].
Qed.
(** The circuit runs on the bytes of the dummy deferred value with k = 5. *)
Example C57_nonvacuous : exists (D : Deferred Fp) bits tr (w : assignment Fp), deferred_dummy 5 = Some D /\
  Exec (verify_deferred (VA 1) 5 bits) tr (Some (Ok tt)) /\ constraints_hold w tr /\ w (VA 1) = fone /\
  Forall2 (bit_has w) bits (flat_map byte_bits (deferred_to_bytes D)).
Proof.
  assert (X : exists D : Deferred Fp, deferred_dummy 5 = Some D /\ deferred_verify D 5 = Some true)
    by exact (C49_dummy_deferred Ec0 _ halo_ec0 5 ltac:(lia)).
  destruct X as (D & E & HV). exists D.
  destruct (dummy_small Fp_laws 5 D E) as (H1 & H2 & H3). pose proof (C50_bits _ _ _ Fp_laws 5 D H1 H2 H3) as HE.
  set (bs := flat_map byte_bits (deferred_to_bytes D)) in *. clearbody bs.
  set (bits := map (fun b => match b with Is x => x | _ => mkBit None (VA 1) end) (wires_of 2 bs)).
  assert (HB : forall w', extends (2 + length bs) (wires_assignment 2 bs) w' -> Forall2 (bit_has w') bits bs).
  { intros w' Hw. pose proof (wires_have 2 bs w' Hw) as HF. unfold bits, wires_of in *. rewrite map_map.
    exact (is_bits _ _ _ _ HF). }
  destruct (complete_runs (verify_deferred (VA 1) 5 bits) (2 + length bs) (wires_assignment 2 bs) (fun w _ => True)) as (tr & [] & w & G1 & G2 & G3 & _).
  - intros w' Hw. eapply (C57_complete _ _ _ Fp_laws); [apply (wires_one 2 bs); [repeat constructor|exact Hw]|lia|exact (HB w' Hw)|exact HE|exact HV].
  - exists bits, tr, w. split; [exact E|]. split; [exact G1|]. split; [exact G2|]. split; [apply (wires_one 2 bs); [repeat constructor|exact G3]|exact (HB w G3)].
Qed.

Print Assumptions C50_leftovers_length.
Print Assumptions C50_deferred_length.
Print Assumptions C50_leftovers.
Print Assumptions C50_deferred.
Print Assumptions C50_small.
Print Assumptions C50_bits.
Print Assumptions C50_injective_refuted.
Print Assumptions C51_equal_numbers.
Print Assumptions C51_equal_bits.
Print Assumptions C51_scalar_bits.
Print Assumptions C51_witness_bits.
Print Assumptions C51_challenge_scalar.
Print Assumptions C51_compute_b.
Print Assumptions C51_challenge_complete.
Print Assumptions C51_challenge_sound.
Print Assumptions C57_sound.
Print Assumptions C57_complete.
Print Assumptions C57_encoding_unique.

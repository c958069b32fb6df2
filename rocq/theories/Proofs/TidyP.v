(** The gadgets use no '/' in their annotations and the names of their namespaces, and
    close the namespaces they open. *)
From Coq Require Import String List Bool Arith ZArith Lia.
From Verif Require Import Model.FieldTrait Model.Circuits Model.Num Model.Boolean Model.Curve Model.Util Model.Rescue Model.RescueGadget Model.Ecc Model.Params Model.Recursion
  Model.UInt Model.Sha256 Model.Bitcoin Model.Dev Spec.DevSpec.
Import ListNotations.
Open Scope list_scope.

Section Rules.
  Context {F : Field}.
  Lemma tidy_pbind {A B} (p : Prog F A) (f : A -> Prog F B) : forall d, tidy d p -> (forall a, tidy 0 (f a)) -> tidy d (pbind p f).
  Proof.
    induction p as [a| |s v k IH|s v k IH|lc k IH|s v k IH|n k IH|k IH]; intros d H Hf; cbn [pbind tidy] in *.
    - subst d. apply Hf.
    - exact I.
    - split; [apply H|]. intro r. apply IH; [apply H|exact Hf].
    - split; [apply H|]. intro r. apply IH; [apply H|exact Hf].
    - apply IH; assumption.
    - split; [apply H|]. intro r. apply IH; [apply H|exact Hf].
    - split; [apply H|]. apply IH; [apply H|exact Hf].
    - destruct d as [|d]; [exact H|]. apply IH; assumption.
  Qed.
  Lemma tidy_pop {A} (p : Prog F A) : forall d, tidy d p -> tidy (S d) (pbind p (fun r => PopNamespace (Ret r))).
  Proof.
    induction p as [a| |s v k IH|s v k IH|lc k IH|s v k IH|n k IH|k IH]; intros d H; cbn [pbind tidy] in *.
    - exact H.
    - exact I.
    - split; [apply H|]. intro r. apply IH, H.
    - split; [apply H|]. intro r. apply IH, H.
    - apply IH; assumption.
    - split; [apply H|]. intro r. apply IH, H.
    - split; [apply H|]. apply IH, H.
    - destruct d as [|d]; [destruct H|]. apply IH; assumption.
  Qed.
  Lemma tidy_ret {A} (a : A) : tidy 0 (ret (F := F) a). Proof. reflexivity. Qed.
  Lemma tidy_Ret {A} (a : A) : tidy 0 (Ret (F := F) a). Proof. reflexivity. Qed.
  Lemma tidy_fail {A} e : tidy 0 (fail (F := F) (A := A) e). Proof. reflexivity. Qed.
  Lemma tidy_lift {A} (r : res A) : tidy 0 (lift (F := F) r). Proof. reflexivity. Qed.
  Lemma tidy_panic {A} d : tidy d (Panic (F := F) (A := A)). Proof. exact I. Qed.
  Lemma tidy_assert b : tidy 0 (assert_ (F := F) b). Proof. destruct b; [reflexivity|exact I]. Qed.
  Lemma tidy_unwrap {A} (o : option A) : tidy 0 (unwrap (F := F) o). Proof. destruct o; [reflexivity|exact I]. Qed.
  Lemma tidy_bind {A B} (m : CS F A) (f : A -> CS F B) : tidy 0 m -> (forall a, tidy 0 (f a)) -> tidy 0 (bind m f).
  Proof. intros H Hf. apply tidy_pbind; [exact H|]. intros [a|e]; [apply Hf|reflexivity]. Qed.
  Lemma tidy_ns {A} n (m : CS F A) : has_slash n = false -> tidy 0 m -> tidy 0 (namespace n m).
  Proof. intros Hn H. split; [exact Hn|]. apply (tidy_pop m 0 H). Qed.
  Lemma tidy_alloc s v : has_slash s = false -> tidy 0 (alloc (F := F) s v).
  Proof. intro H. split; [exact H|]. intros [[x c]|e]; reflexivity. Qed.
  Lemma tidy_input s v : has_slash s = false -> tidy 0 (alloc_input (F := F) s v).
  Proof. intro H. split; [exact H|]. intros [[x c]|e]; reflexivity. Qed.
  Lemma tidy_mul s v : has_slash s = false -> tidy 0 (multiply (F := F) s v).
  Proof. intro H. split; [exact H|]. intros [[x c]|e]; reflexivity. Qed.
  Lemma tidy_lc lc : tidy 0 (enforce_zero (F := F) lc). Proof. reflexivity. Qed.
  Lemma tidy_foldM {A B} (f : B -> A -> CS F B) xs : (forall b a, tidy 0 (f b a)) -> forall acc, tidy 0 (foldM f xs acc).
  Proof. intro H. induction xs as [|x xs IH]; intro acc; [reflexivity|]. cbn [foldM]. apply tidy_bind; [apply H|exact IH]. Qed.
  Lemma tidy_mapM {A B} (f : A -> CS F B) xs : (forall a, tidy 0 (f a)) -> tidy 0 (mapM f xs).
  Proof. intro H. induction xs as [|x xs IH]; [reflexivity|]. cbn [mapM]. apply tidy_bind; [apply H|]. intro y. apply tidy_bind; [exact IH|]. intro ys. reflexivity. Qed.
End Rules.
Create HintDb tidy.
#[export] Hint Resolve tidy_ret tidy_Ret tidy_fail tidy_lift tidy_panic tidy_assert tidy_unwrap tidy_lc : tidy.
#[export] Hint Extern 0 (has_slash _ = false) => reflexivity : tidy.
Ltac td1 := lazymatch goal with
  | |- forall _, _ => intro
  | |- has_slash _ = false => first [assumption|reflexivity]
  | |- tidy 0 (match ?x with _ => _ end) => destruct x
  | |- tidy 0 ((match ?x with _ => _ end) _) => destruct x
  | |- tidy 0 (bind _ _) => apply tidy_bind
  | |- tidy 0 (namespace _ _) => apply tidy_ns
  | |- tidy 0 (alloc _ _) => apply tidy_alloc
  | |- tidy 0 (alloc_input _ _) => apply tidy_input
  | |- tidy 0 (multiply _ _) => apply tidy_mul
  | |- tidy 0 (foldM _ _ _) => apply tidy_foldM
  | |- tidy 0 (mapM _ _) => apply tidy_mapM
  | |- tidy 0 (let x := _ in _) => cbv zeta
  | |- tidy 0 _ => solve [auto 2 with tidy nocore] || (progress cbv beta)
  end.
Ltac td := repeat td1.
Ltac stmt t := lazymatch type of t with
  | forall x : string, _ => constr:(forall x : string, has_slash x = false -> ltac:(let r := stmt (t x) in exact r))
  | forall x : ?A, _ => constr:(forall x : A, ltac:(let r := stmt (t x) in exact r))
  | _ => constr:(tidy 0 t) end.


(** Num *)
Lemma T_constrain_pow_five : ltac:(let r := stmt (@constrain_pow_five) in exact r).
Proof. unfold constrain_pow_five. td. Qed.
#[export] Hint Resolve T_constrain_pow_five : tidy.
Lemma T_num_alloc : ltac:(let r := stmt (@num_alloc) in exact r).
Proof. unfold num_alloc. td. Qed.
#[export] Hint Resolve T_num_alloc : tidy.
Lemma T_num_alloc_input : ltac:(let r := stmt (@num_alloc_input) in exact r).
Proof. unfold num_alloc_input. td. Qed.
#[export] Hint Resolve T_num_alloc_input : tidy.
Lemma T_num_inputize : ltac:(let r := stmt (@num_inputize) in exact r).
Proof. unfold num_inputize. td. Qed.
#[export] Hint Resolve T_num_inputize : tidy.
Lemma T_num_mul : ltac:(let r := stmt (@num_mul) in exact r).
Proof. unfold num_mul. td. Qed.
#[export] Hint Resolve T_num_mul : tidy.
Lemma T_num_alloc_and_square : ltac:(let r := stmt (@num_alloc_and_square) in exact r).
Proof. unfold num_alloc_and_square. td. Qed.
#[export] Hint Resolve T_num_alloc_and_square : tidy.
Lemma T_num_invert : ltac:(let r := stmt (@num_invert) in exact r).
Proof. unfold num_invert. td. Qed.
#[export] Hint Resolve T_num_invert : tidy.
Lemma T_num_sqrt : ltac:(let r := stmt (@num_sqrt) in exact r).
Proof. unfold num_sqrt. td. Qed.
#[export] Hint Resolve T_num_sqrt : tidy.
Lemma T_comb_evaluate : ltac:(let r := stmt (@comb_evaluate) in exact r).
Proof. unfold comb_evaluate. td. Qed.
#[export] Hint Resolve T_comb_evaluate : tidy.
Lemma T_comb_mul : ltac:(let r := stmt (@comb_mul) in exact r).
Proof. unfold comb_mul. td. Qed.
#[export] Hint Resolve T_comb_mul : tidy.
Lemma T_comb_square : ltac:(let r := stmt (@comb_square) in exact r).
Proof. unfold comb_square. td. Qed.
#[export] Hint Resolve T_comb_square : tidy.
Lemma T_num_rescue_alpha : ltac:(let r := stmt (@num_rescue_alpha) in exact r).
Proof. unfold num_rescue_alpha. td. Qed.
#[export] Hint Resolve T_num_rescue_alpha : tidy.
Lemma T_num_rescue_invalpha : ltac:(let r := stmt (@num_rescue_invalpha) in exact r).
Proof. unfold num_rescue_invalpha. td. Qed.
#[export] Hint Resolve T_num_rescue_invalpha : tidy.
Lemma T_comb_rescue_alpha : ltac:(let r := stmt (@comb_rescue_alpha) in exact r).
Proof. unfold comb_rescue_alpha. td. Qed.
#[export] Hint Resolve T_comb_rescue_alpha : tidy.
Lemma T_comb_rescue_invalpha : ltac:(let r := stmt (@comb_rescue_invalpha) in exact r).
Proof. unfold comb_rescue_invalpha. td. Qed.
#[export] Hint Resolve T_comb_rescue_invalpha : tidy.

(** Boolean *)
Lemma T_bit_alloc_input_unchecked : ltac:(let r := stmt (@bit_alloc_input_unchecked) in exact r).
Proof. unfold bit_alloc_input_unchecked. td. Qed.
#[export] Hint Resolve T_bit_alloc_input_unchecked : tidy.
Lemma T_bit_check : ltac:(let r := stmt (@bit_check) in exact r).
Proof. unfold bit_check. td. Qed.
#[export] Hint Resolve T_bit_check : tidy.
Lemma T_bit_alloc : ltac:(let r := stmt (@bit_alloc) in exact r).
Proof. unfold bit_alloc. td. Qed.
#[export] Hint Resolve T_bit_alloc : tidy.
Lemma T_bit_xor : ltac:(let r := stmt (@bit_xor) in exact r).
Proof. unfold bit_xor. td. Qed.
#[export] Hint Resolve T_bit_xor : tidy.
Lemma T_bit_and : ltac:(let r := stmt (@bit_and) in exact r).
Proof. unfold bit_and. td. Qed.
#[export] Hint Resolve T_bit_and : tidy.
Lemma T_bit_and_not : ltac:(let r := stmt (@bit_and_not) in exact r).
Proof. unfold bit_and_not. td. Qed.
#[export] Hint Resolve T_bit_and_not : tidy.
Lemma T_bit_nor : ltac:(let r := stmt (@bit_nor) in exact r).
Proof. unfold bit_nor. td. Qed.
#[export] Hint Resolve T_bit_nor : tidy.
Lemma T_unpack_fe : ltac:(let r := stmt (@unpack_fe) in exact r).
Proof. unfold unpack_fe. td. Qed.
#[export] Hint Resolve T_unpack_fe : tidy.
Lemma T_bool_enforce_equal : ltac:(let r := stmt (@bool_enforce_equal) in exact r).
Proof. unfold bool_enforce_equal. td. Qed.
#[export] Hint Resolve T_bool_enforce_equal : tidy.
Lemma T_bool_xor : ltac:(let r := stmt (@bool_xor) in exact r).
Proof. unfold bool_xor. td. Qed.
#[export] Hint Resolve T_bool_xor : tidy.
Lemma T_bool_and : ltac:(let r := stmt (@bool_and) in exact r).
Proof. unfold bool_and. td. Qed.
#[export] Hint Resolve T_bool_and : tidy.
Lemma T_sha256_ch_gate : ltac:(let r := stmt (@sha256_ch_gate) in exact r).
Proof. unfold sha256_ch_gate. td. Qed.
#[export] Hint Resolve T_sha256_ch_gate : tidy.
Lemma T_bool_sha256_ch : ltac:(let r := stmt (@bool_sha256_ch) in exact r).
Proof. unfold bool_sha256_ch. td. Qed.
#[export] Hint Resolve T_bool_sha256_ch : tidy.
Lemma T_sha256_maj_gate : ltac:(let r := stmt (@sha256_maj_gate) in exact r).
Proof. unfold sha256_maj_gate. td. Qed.
#[export] Hint Resolve T_sha256_maj_gate : tidy.
Lemma T_bool_sha256_maj : ltac:(let r := stmt (@bool_sha256_maj) in exact r).
Proof. unfold bool_sha256_maj. td. Qed.
#[export] Hint Resolve T_bool_sha256_maj : tidy.

(** RescueGadget *)
Lemma T_sbox_layer : ltac:(let r := stmt (@sbox_layer) in exact r).
Proof. unfold sbox_layer. td. Qed.
#[export] Hint Resolve T_sbox_layer : tidy.
Lemma T_g_rounds {F : Field} one mds keys : forall r st, tidy 0 (@g_rounds F one mds r keys st).
Proof. induction keys; intros; cbn [g_rounds]; td. Qed.
#[export] Hint Resolve T_g_rounds : tidy.
Lemma T_g_rescue_f : ltac:(let r := stmt (@g_rescue_f) in exact r).
Proof. unfold g_rescue_f. td. Qed.
#[export] Hint Resolve T_g_rescue_f : tidy.
Lemma T_evaluate_all : ltac:(let r := stmt (@evaluate_all) in exact r).
Proof. unfold evaluate_all. td. Qed.
#[export] Hint Resolve T_evaluate_all : tidy.
Lemma T_g_key_rounds {F : Field} one mds cs : forall r st, tidy 0 (@g_key_rounds F one mds r cs st).
Proof. induction cs; intros; cbn [g_key_rounds]; td. Qed.
#[export] Hint Resolve T_g_key_rounds : tidy.
Lemma T_g_generate_key_schedule : ltac:(let r := stmt (@g_generate_key_schedule) in exact r).
Proof. unfold g_generate_key_schedule. td. Qed.
#[export] Hint Resolve T_g_generate_key_schedule : tidy.
Lemma T_g_pad : ltac:(let r := stmt (@g_pad) in exact r).
Proof. unfold g_pad. td. Qed.
#[export] Hint Resolve T_g_pad : tidy.
Lemma T_g_rescue_duplex : ltac:(let r := stmt (@g_rescue_duplex) in exact r).
Proof. unfold g_rescue_duplex. td. Qed.
#[export] Hint Resolve T_g_rescue_duplex : tidy.
Lemma T_gadget_new : ltac:(let r := stmt (@gadget_new) in exact r).
Proof. unfold gadget_new. td. Qed.
#[export] Hint Resolve T_gadget_new : tidy.
Lemma T_gadget_absorb : ltac:(let r := stmt (@gadget_absorb) in exact r).
Proof. unfold gadget_absorb. td. Qed.
#[export] Hint Resolve T_gadget_absorb : tidy.
Lemma T_gadget_squeeze_loop {F : Field} one fuel : forall self, tidy 0 (@gadget_squeeze_loop F one fuel self).
Proof. induction fuel; intros; cbn [gadget_squeeze_loop]; td. Qed.
#[export] Hint Resolve T_gadget_squeeze_loop : tidy.
Lemma T_gadget_squeeze : ltac:(let r := stmt (@gadget_squeeze) in exact r).
Proof. unfold gadget_squeeze. td. Qed.
#[export] Hint Resolve T_gadget_squeeze : tidy.

(** Ecc *)
Lemma T_cp_witness : ltac:(let r := stmt (@cp_witness) in exact r).
Proof. unfold cp_witness. td. Qed.
#[export] Hint Resolve T_cp_witness : tidy.
Lemma T_cp_conditional_endo : ltac:(let r := stmt (@cp_conditional_endo) in exact r).
Proof. unfold cp_conditional_endo. td. Qed.
#[export] Hint Resolve T_cp_conditional_endo : tidy.
Lemma T_cp_conditional_neg : ltac:(let r := stmt (@cp_conditional_neg) in exact r).
Proof. unfold cp_conditional_neg. td. Qed.
#[export] Hint Resolve T_cp_conditional_neg : tidy.
Lemma T_cp_add_incomplete : ltac:(let r := stmt (@cp_add_incomplete) in exact r).
Proof. unfold cp_add_incomplete. td. Qed.
#[export] Hint Resolve T_cp_add_incomplete : tidy.
Lemma T_point_unwrap : ltac:(let r := stmt (@point_unwrap) in exact r).
Proof. unfold point_unwrap. td. Qed.
#[export] Hint Resolve T_point_unwrap : tidy.
Lemma T_cp_add : ltac:(let r := stmt (@cp_add) in exact r).
Proof. unfold cp_add. td. Qed.
#[export] Hint Resolve T_cp_add : tidy.
Lemma T_cp_add_conditionally : ltac:(let r := stmt (@cp_add_conditionally) in exact r).
Proof. unfold cp_add_conditionally. td. Qed.
#[export] Hint Resolve T_cp_add_conditionally : tidy.
Lemma T_get_point_unwrap : ltac:(let r := stmt (@get_point_unwrap) in exact r).
Proof. unfold get_point_unwrap. td. Qed.
#[export] Hint Resolve T_get_point_unwrap : tidy.
Lemma T_cp_add_conditionally_incomplete : ltac:(let r := stmt (@cp_add_conditionally_incomplete) in exact r).
Proof. unfold cp_add_conditionally_incomplete. td. Qed.
#[export] Hint Resolve T_cp_add_conditionally_incomplete : tidy.
Lemma T_cp_double : ltac:(let r := stmt (@cp_double) in exact r).
Proof. unfold cp_double. td. Qed.
#[export] Hint Resolve T_cp_double : tidy.
Lemma T_cp_double_and_add_incomplete : ltac:(let r := stmt (@cp_double_and_add_incomplete) in exact r).
Proof. unfold cp_double_and_add_incomplete. td. Qed.
#[export] Hint Resolve T_cp_double_and_add_incomplete : tidy.
Lemma T_cp_multiply_step : ltac:(let r := stmt (@cp_multiply_step) in exact r).
Proof. unfold cp_multiply_step. td. Qed.
#[export] Hint Resolve T_cp_multiply_step : tidy.
Lemma T_cp_multiply : ltac:(let r := stmt (@cp_multiply) in exact r).
Proof. unfold cp_multiply. td. Qed.
#[export] Hint Resolve T_cp_multiply : tidy.
Lemma T_cp_endo_step : ltac:(let r := stmt (@cp_endo_step) in exact r).
Proof. unfold cp_endo_step. td. Qed.
#[export] Hint Resolve T_cp_endo_step : tidy.
Lemma T_mask {C : Curve} one s x b : has_slash s = false -> tidy 0 (@mask C one s x b).
Proof. intro H. unfold mask. td. Qed.
#[export] Hint Resolve T_mask : tidy.
Lemma T_cp_multiply_endo : ltac:(let r := stmt (@cp_multiply_endo) in exact r).
Proof. unfold cp_multiply_endo. td. Qed.
#[export] Hint Resolve T_cp_multiply_endo : tidy.
Lemma T_cp_multiply_inv_endo : ltac:(let r := stmt (@cp_multiply_inv_endo) in exact r).
Proof. unfold cp_multiply_inv_endo. td. Qed.
#[export] Hint Resolve T_cp_multiply_inv_endo : tidy.
Lemma T_cp_multiply_fast : ltac:(let r := stmt (@cp_multiply_fast) in exact r).
Proof. unfold cp_multiply_fast. td. Qed.
#[export] Hint Resolve T_cp_multiply_fast : tidy.
Lemma T_cp_inv_helper {C : Curve} one self other f : (forall p, tidy 0 (f p)) -> tidy 0 (@cp_inv_helper C one self other f).
Proof. intro H. unfold cp_inv_helper. td. Qed.
#[export] Hint Resolve T_cp_inv_helper : tidy.
Lemma T_cp_multiply_inv : ltac:(let r := stmt (@cp_multiply_inv) in exact r).
Proof. unfold cp_multiply_inv. td. Qed.
#[export] Hint Resolve T_cp_multiply_inv : tidy.
Lemma T_cp_multiply_inv_fast : ltac:(let r := stmt (@cp_multiply_inv_fast) in exact r).
Proof. unfold cp_multiply_inv_fast. td. Qed.
#[export] Hint Resolve T_cp_multiply_inv_fast : tidy.

(** Recursion *)
Lemma T_bits_at : ltac:(let r := stmt (@bits_at) in exact r).
Proof. unfold bits_at. td. Qed.
#[export] Hint Resolve T_bits_at : tidy.
Lemma T_num_equal_unless_base_case : ltac:(let r := stmt (@num_equal_unless_base_case) in exact r).
Proof. unfold num_equal_unless_base_case. td. Qed.
#[export] Hint Resolve T_num_equal_unless_base_case : tidy.
Lemma T_equal_chunks {F : Field} one fuel : forall b l l', tidy 0 (@equal_chunks F one fuel b l l').
Proof. induction fuel; intros; cbn [equal_chunks]; td. Qed.
#[export] Hint Resolve T_equal_chunks : tidy.
Lemma T_equal_unless_base_case : ltac:(let r := stmt (@equal_unless_base_case) in exact r).
Proof. unfold equal_unless_base_case. td. Qed.
#[export] Hint Resolve T_equal_unless_base_case : tidy.
Lemma T_obtain_scalar_from_bits : ltac:(let r := stmt (@obtain_scalar_from_bits) in exact r).
Proof. unfold obtain_scalar_from_bits. td. Qed.
#[export] Hint Resolve T_obtain_scalar_from_bits : tidy.
Lemma T_witness_bits_from_fe : ltac:(let r := stmt (@witness_bits_from_fe) in exact r).
Proof. unfold witness_bits_from_fe. td. Qed.
#[export] Hint Resolve T_witness_bits_from_fe : tidy.
Lemma T_challenge_step : ltac:(let r := stmt (@challenge_step) in exact r).
Proof. unfold challenge_step. td. Qed.
#[export] Hint Resolve T_challenge_step : tidy.
Lemma T_g_get_challenge_scalar : ltac:(let r := stmt (@g_get_challenge_scalar) in exact r).
Proof. unfold g_get_challenge_scalar. td. Qed.
#[export] Hint Resolve T_g_get_challenge_scalar : tidy.
Lemma T_g_get_challenge : ltac:(let r := stmt (@g_get_challenge) in exact r).
Proof. unfold g_get_challenge. td. Qed.
#[export] Hint Resolve T_g_get_challenge : tidy.
Lemma T_g_compute_b_rev {F : Field} one cs : forall x cis, tidy 0 (@g_compute_b_rev F one x cs cis).
Proof. induction cs; intros; cbn [g_compute_b_rev]; td. Qed.
#[export] Hint Resolve T_g_compute_b_rev : tidy.
Lemma T_g_compute_b : ltac:(let r := stmt (@g_compute_b) in exact r).
Proof. unfold g_compute_b. td. Qed.
#[export] Hint Resolve T_g_compute_b : tidy.
Lemma T_g_compute_thing : ltac:(let r := stmt (@g_compute_thing) in exact r).
Proof. unfold g_compute_thing. td. Qed.
#[export] Hint Resolve T_g_compute_thing : tidy.
Lemma T_square_times : ltac:(let r := stmt (@square_times) in exact r).
Proof. unfold square_times. td. Qed.
#[export] Hint Resolve T_square_times : tidy.
Lemma T_cut : ltac:(let r := stmt (@cut) in exact r).
Proof. unfold cut. td. Qed.
#[export] Hint Resolve T_cut : tidy.
Lemma T_cut_scalar : ltac:(let r := stmt (@cut_scalar) in exact r).
Proof. unfold cut_scalar. td. Qed.
#[export] Hint Resolve T_cut_scalar : tidy.
Lemma T_cut_challenges {F : Field} one k : forall bits, tidy 0 (@cut_challenges F one k bits).
Proof. induction k; intros; cbn [cut_challenges]; td. Qed.
#[export] Hint Resolve T_cut_challenges : tidy.
Lemma T_enforce_value : ltac:(let r := stmt (@enforce_value) in exact r).
Proof. unfold enforce_value. td. Qed.
#[export] Hint Resolve T_enforce_value : tidy.
Lemma T_unpack_deferred : ltac:(let r := stmt (@unpack_deferred) in exact r).
Proof. unfold unpack_deferred. td. Qed.
#[export] Hint Resolve T_unpack_deferred : tidy.
Lemma T_check_circuit : ltac:(let r := stmt (@check_circuit) in exact r).
Proof. unfold check_circuit. td. Qed.
#[export] Hint Resolve T_check_circuit : tidy.
Lemma T_roots_and_inverses : ltac:(let r := stmt (@roots_and_inverses) in exact r).
Proof. unfold roots_and_inverses. td. Qed.
#[export] Hint Resolve T_roots_and_inverses : tidy.
Lemma T_verify_deferred : ltac:(let r := stmt (@verify_deferred) in exact r).
Proof. unfold verify_deferred. td. Qed.
#[export] Hint Resolve T_verify_deferred : tidy.
Lemma T_commit_point : ltac:(let r := stmt (@commit_point) in exact r).
Proof. unfold commit_point. td. Qed.
#[export] Hint Resolve T_commit_point : tidy.
Lemma T_witness_of : ltac:(let r := stmt (@witness_of) in exact r).
Proof. unfold witness_of. td. Qed.
#[export] Hint Resolve T_witness_of : tidy.
Lemma T_witness_at : ltac:(let r := stmt (@witness_at) in exact r).
Proof. unfold witness_at. td. Qed.
#[export] Hint Resolve T_witness_at : tidy.
Lemma T_point_equal_unless : ltac:(let r := stmt (@point_equal_unless) in exact r).
Proof. unfold point_equal_unless. td. Qed.
#[export] Hint Resolve T_point_equal_unless : tidy.
Lemma T_endo_chain : ltac:(let r := stmt (@endo_chain) in exact r).
Proof. unfold endo_chain. td. Qed.
#[export] Hint Resolve T_endo_chain : tidy.
Lemma T_g_constant : ltac:(let r := stmt (@g_constant) in exact r).
Proof. unfold g_constant. td. Qed.
#[export] Hint Resolve T_g_constant : tidy.
Lemma T_ip_message : ltac:(let r := stmt (@ip_message) in exact r).
Proof. unfold ip_message. td. Qed.
#[export] Hint Resolve T_ip_message : tidy.
Lemma T_ip_update : ltac:(let r := stmt (@ip_update) in exact r).
Proof. unfold ip_update. td. Qed.
#[export] Hint Resolve T_ip_update : tidy.
Lemma T_ip_round : ltac:(let r := stmt (@ip_round) in exact r).
Proof. unfold ip_round. td. Qed.
#[export] Hint Resolve T_ip_round : tidy.
Lemma T_ip_final : ltac:(let r := stmt (@ip_final) in exact r).
Proof. unfold ip_final. td. Qed.
#[export] Hint Resolve T_ip_final : tidy.
Lemma T_verify_inner_product : ltac:(let r := stmt (@verify_inner_product) in exact r).
Proof. unfold verify_inner_product. td. Qed.
#[export] Hint Resolve T_verify_inner_product : tidy.
Lemma T_opening_point : ltac:(let r := stmt (@opening_point) in exact r).
Proof. unfold opening_point. td. Qed.
#[export] Hint Resolve T_opening_point : tidy.
Lemma T_witness_commit : ltac:(let r := stmt (@witness_commit) in exact r).
Proof. unfold witness_commit. td. Qed.
#[export] Hint Resolve T_witness_commit : tidy.
Lemma T_g_verify_proof : ltac:(let r := stmt (@g_verify_proof) in exact r).
Proof. unfold g_verify_proof. td. Qed.
#[export] Hint Resolve T_g_verify_proof : tidy.
Lemma T_input_bits : ltac:(let r := stmt (@input_bits) in exact r).
Proof. unfold input_bits. td. Qed.
#[export] Hint Resolve T_input_bits : tidy.
Lemma T_witness_bits : ltac:(let r := stmt (@witness_bits) in exact r).
Proof. unfold witness_bits. td. Qed.
#[export] Hint Resolve T_witness_bits : tidy.
Lemma T_check_bits : ltac:(let r := stmt (@check_bits) in exact r).
Proof. unfold check_bits. td. Qed.
#[export] Hint Resolve T_check_bits : tidy.
Lemma T_constrain_payload_bit : ltac:(let r := stmt (@constrain_payload_bit) in exact r).
Proof. unfold constrain_payload_bit. td. Qed.
#[export] Hint Resolve T_constrain_payload_bit : tidy.
Lemma T_commit_bits : ltac:(let r := stmt (@commit_bits) in exact r).
Proof. unfold commit_bits. td. Qed.
#[export] Hint Resolve T_commit_bits : tidy.
Lemma T_vc_synthesize {C : Curve} one (self : VerificationCircuit C) : (forall ob nb, tidy 0 (inner_synthesize (vc_inner self) one ob nb)) -> tidy 0 (vc_synthesize one self).
Proof. intro H. unfold vc_synthesize. td. Qed.
#[export] Hint Resolve T_vc_synthesize : tidy.

(** UInt *)
Lemma T_u_from_bits : ltac:(let r := stmt (@u_from_bits) in exact r).
Proof. unfold u_from_bits. td. Qed.
#[export] Hint Resolve T_u_from_bits : tidy.
Lemma T_u32_from_bits_be : ltac:(let r := stmt (@u32_from_bits_be) in exact r).
Proof. unfold u32_from_bits_be. td. Qed.
#[export] Hint Resolve T_u32_from_bits_be : tidy.
Lemma T_alloc_bits : ltac:(let r := stmt (@alloc_bits) in exact r).
Proof. unfold alloc_bits. td. Qed.
#[export] Hint Resolve T_alloc_bits : tidy.
Lemma T_u_alloc : ltac:(let r := stmt (@u_alloc) in exact r).
Proof. unfold u_alloc. td. Qed.
#[export] Hint Resolve T_u_alloc : tidy.
Lemma T_u32_triop {F : Field} a b c g f : (forall x y z, tidy 0 (f x y z)) -> tidy 0 (@u32_triop F a b c g f).
Proof. intro H. unfold u32_triop. td. Qed.
#[export] Hint Resolve T_u32_triop : tidy.
Lemma T_u32_sha256_maj : ltac:(let r := stmt (@u32_sha256_maj) in exact r).
Proof. unfold u32_sha256_maj. intros. apply T_u32_triop. td. Qed.
#[export] Hint Resolve T_u32_sha256_maj : tidy.
Lemma T_u32_sha256_ch : ltac:(let r := stmt (@u32_sha256_ch) in exact r).
Proof. unfold u32_sha256_ch. intros. apply T_u32_triop. td. Qed.
#[export] Hint Resolve T_u32_sha256_ch : tidy.
Lemma T_u32_xor : ltac:(let r := stmt (@u32_xor) in exact r).
Proof. unfold u32_xor. td. Qed.
#[export] Hint Resolve T_u32_xor : tidy.
Lemma T_result_loop {F : Field} fuel : forall m v i c lc bits, tidy 0 (@result_loop F fuel m v i c lc bits).
Proof. induction fuel; intros; cbn [result_loop]; td. Qed.
#[export] Hint Resolve T_result_loop : tidy.
Lemma T_u32_addmany : ltac:(let r := stmt (@u32_addmany) in exact r).
Proof. unfold u32_addmany. td. Qed.
#[export] Hint Resolve T_u32_addmany : tidy.
Lemma T_u64_mul_acc2 : ltac:(let r := stmt (@u64_mul_acc2) in exact r).
Proof. unfold u64_mul_acc2. td. Qed.
#[export] Hint Resolve T_u64_mul_acc2 : tidy.

(** Sha256 *)
Lemma T_index : ltac:(let r := stmt (@index) in exact r).
Proof. unfold index. td. Qed.
#[export] Hint Resolve T_index : tidy.
Lemma T_w_extension : ltac:(let r := stmt (@w_extension) in exact r).
Proof. unfold w_extension. td. Qed.
#[export] Hint Resolve T_w_extension : tidy.
Lemma T_compute : ltac:(let r := stmt (@compute) in exact r).
Proof. unfold compute. td. Qed.
#[export] Hint Resolve T_compute : tidy.
Lemma T_compression_round : ltac:(let r := stmt (@compression_round) in exact r).
Proof. unfold compression_round. td. Qed.
#[export] Hint Resolve T_compression_round : tidy.
Lemma T_sha256_compression_function : ltac:(let r := stmt (@sha256_compression_function) in exact r).
Proof. unfold sha256_compression_function. td. Qed.
#[export] Hint Resolve T_sha256_compression_function : tidy.
Lemma T_sha256_block_no_padding : ltac:(let r := stmt (@sha256_block_no_padding) in exact r).
Proof. unfold sha256_block_no_padding. td. Qed.
#[export] Hint Resolve T_sha256_block_no_padding : tidy.
Lemma T_sha256 : ltac:(let r := stmt (@sha256) in exact r).
Proof. unfold sha256. td. Qed.
#[export] Hint Resolve T_sha256 : tidy.

(** Bitcoin *)
Lemma T_slice : ltac:(let r := stmt (@slice) in exact r).
Proof. unfold slice. td. Qed.
#[export] Hint Resolve T_slice : tidy.
Lemma T_bytes_to_bits : ltac:(let r := stmt (@bytes_to_bits) in exact r).
Proof. unfold bytes_to_bits. td. Qed.
#[export] Hint Resolve T_bytes_to_bits : tidy.
Lemma T_enforce_equality : ltac:(let r := stmt (@enforce_equality) in exact r).
Proof. unfold enforce_equality. td. Qed.
#[export] Hint Resolve T_enforce_equality : tidy.
Lemma T_bits_to_num : ltac:(let r := stmt (@bits_to_num) in exact r).
Proof. unfold bits_to_num. td. Qed.
#[export] Hint Resolve T_bits_to_num : tidy.
Lemma T_from_header : ltac:(let r := stmt (@from_header) in exact r).
Proof. unfold from_header. td. Qed.
#[export] Hint Resolve T_from_header : tidy.
Lemma T_pow_step : ltac:(let r := stmt (@pow_step) in exact r).
Proof. unfold pow_step. td. Qed.
#[export] Hint Resolve T_pow_step : tidy.
Lemma T_unpack_target : ltac:(let r := stmt (@unpack_target) in exact r).
Proof. unfold unpack_target. td. Qed.
#[export] Hint Resolve T_unpack_target : tidy.
Lemma T_unpack_power : ltac:(let r := stmt (@unpack_power) in exact r).
Proof. unfold unpack_power. td. Qed.
#[export] Hint Resolve T_unpack_power : tidy.
Lemma T_unpack : ltac:(let r := stmt (@unpack) in exact r).
Proof. unfold unpack. td. Qed.
#[export] Hint Resolve T_unpack : tidy.
Lemma T_unpack_payload_bits : ltac:(let r := stmt (@unpack_payload_bits) in exact r).
Proof. unfold unpack_payload_bits. td. Qed.
#[export] Hint Resolve T_unpack_payload_bits : tidy.
Lemma T_sha256d : ltac:(let r := stmt (@sha256d) in exact r).
Proof. unfold sha256d. td. Qed.
#[export] Hint Resolve T_sha256d : tidy.
Lemma T_from_target : ltac:(let r := stmt (@from_target) in exact r).
Proof. unfold from_target. td. Qed.
#[export] Hint Resolve T_from_target : tidy.
Lemma T_four_limbs : ltac:(let r := stmt (@four_limbs) in exact r).
Proof. unfold four_limbs. td. Qed.
#[export] Hint Resolve T_four_limbs : tidy.
Lemma T_mul_inner : ltac:(let r := stmt (@mul_inner) in exact r).
Proof. unfold mul_inner. td. Qed.
#[export] Hint Resolve T_mul_inner : tidy.
Lemma T_mul_outer : ltac:(let r := stmt (@mul_outer) in exact r).
Proof. unfold mul_outer. td. Qed.
#[export] Hint Resolve T_mul_outer : tidy.
Lemma T_mul_limbs : ltac:(let r := stmt (@mul_limbs) in exact r).
Proof. unfold mul_limbs. td. Qed.
#[export] Hint Resolve T_mul_limbs : tidy.
Lemma T_header_links : ltac:(let r := stmt (@header_links) in exact r).
Proof. unfold header_links. td. Qed.
#[export] Hint Resolve T_header_links : tidy.
Lemma T_header_work : ltac:(let r := stmt (@header_work) in exact r).
Proof. unfold header_work. td. Qed.
#[export] Hint Resolve T_header_work : tidy.
Lemma T_bitcoin_synthesize : ltac:(let r := stmt (@bitcoin_synthesize) in exact r).
Proof. unfold bitcoin_synthesize. td. Qed.
#[export] Hint Resolve T_bitcoin_synthesize : tidy.

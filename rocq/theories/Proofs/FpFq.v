(** The concrete constants of fp.rs and fq.rs satisfy every numeric side condition. *)
From Coq Require Import ZArith List Lia Znumtheory Bool.
From Verif Require Import Lib.ZMod Model.FieldLimbs Model.FieldInst Spec.FieldSpec Spec.FieldLaws
  Proofs.FieldLimbsP Proofs.FieldRepP Proofs.Primes Proofs.FieldInstP.
Import ListNotations.
Open Scope Z_scope.

Ltac fin := vm_compute; first [reflexivity | discriminate].
Ltac wf := split; [|split; [|split]]; split; fin.
Ltac can := split; [wf|fin].

Lemma fp_modulus : modulus fp_params = p_modulus. Proof. reflexivity. Qed.
Lemma fq_modulus : modulus fq_params = q_modulus. Proof. reflexivity. Qed.

Lemma fp_ok : params_ok fp_params.
Proof.
  constructor; [wf|fin|fin|fin|split; fin|fin|can|fin|can|fin|can|fin|can].
Qed.
Lemma fq_ok : params_ok fq_params.
Proof.
  constructor; [wf|fin|fin|fin|split; fin|fin|can|fin|can|fin|can|fin|can].
Qed.

Lemma fp_consts : consts_ok fp_params.
Proof.
  constructor;
    [rewrite fp_modulus; exact p_prime | wf | vm_compute; reflexivity | vm_compute; reflexivity
    | wf | vm_compute; reflexivity | wf | vm_compute; reflexivity | wf | vm_compute; reflexivity
    | vm_compute; reflexivity | vm_compute; discriminate |].
  exists 0x227c0f98b53c91d483f087ca0f9e864db17c48f7e98126d779fb63ab307928c1. split.
  - split; [can|split; [split|]; fin].
  - vm_compute. reflexivity.
Qed.
Lemma fq_consts : consts_ok fq_params.
Proof.
  constructor;
    [rewrite fq_modulus; exact q_prime | wf | vm_compute; reflexivity | vm_compute; reflexivity
    | wf | vm_compute; reflexivity | wf | vm_compute; reflexivity | wf | vm_compute; reflexivity
    | vm_compute; reflexivity | vm_compute; discriminate |].
  exists 0x5d06812a7ce1ba58b0209b1320bd3230db8439a88f960571e053db70ae2e316. split.
  - split; [can|split; [split|]; fin].
  - vm_compute. reflexivity.
Qed.

Theorem Fp_laws : FieldLaws Fp p_modulus Fp_val.
Proof. rewrite <- fp_modulus. apply (FE_field_laws fp_params fp_ok fp_consts). Qed.
Theorem Fq_laws : FieldLaws Fq q_modulus Fq_val.
Proof. rewrite <- fq_modulus. apply (FE_field_laws fq_params fq_ok fq_consts). Qed.

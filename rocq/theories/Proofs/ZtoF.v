(** Integers read as field elements. *)
From Coq Require Import ZArith Lia Ring Field List.
From Verif Require Import Model.FieldTrait Spec.FieldLaws Proofs.FieldGen.
Open Scope Z_scope.

Section ZtoF.
  Context {F : FieldOps}.
  Fixpoint fposz (n : positive) : F :=
    match n with
    | xH => fone
    | xO n => fadd (fposz n) (fposz n)
    | xI n => fadd fone (fadd (fposz n) (fposz n))
    end.
  Definition fz (z : Z) : F :=
    match z with Z0 => fzero | Zpos n => fposz n | Zneg n => fneg (fposz n) end.

  Context {p : Z} {v : F -> Z} (OL : OpsLaws F p v).
  Add Ring Fr : (fring OL).

  Lemma v_fposz n : v (fposz n) = Zpos n mod p.
  Proof.
    induction n as [n IH|n IH|]; simpl fposz.
    - rewrite !(ol_add _ _ _ OL), (ol_one _ _ _ OL), IH.
      rewrite <- Zplus_mod, Zplus_mod_idemp_r. f_equal. lia.
    - rewrite (ol_add _ _ _ OL), IH, <- Zplus_mod. f_equal. lia.
    - rewrite (ol_one _ _ _ OL). symmetry. apply Z.mod_small. pose proof (ol_odd _ _ _ OL). lia.
  Qed.
  Lemma v_fz z : v (fz z) = z mod p.
  Proof.
    pose proof (ol_odd _ _ _ OL). destruct z; simpl fz.
    - rewrite (ol_zero _ _ _ OL), Z.mod_0_l by lia. reflexivity.
    - apply v_fposz.
    - rewrite (ol_neg _ _ _ OL), v_fposz.
      replace (- (Zpos p0 mod p)) with (0 - Zpos p0 mod p) by lia.
      rewrite Zminus_mod_idemp_r. reflexivity.
  Qed.
  Lemma fz_v a : fz (v a) = a.
  Proof. apply (ol_inj _ _ _ OL). rewrite v_fz. apply (v_mod OL). Qed.
  Lemma fz_eq a b : a mod p = b mod p <-> fz a = fz b.
  Proof.
    split; intro H.
    - apply (ol_inj _ _ _ OL). rewrite !v_fz. exact H.
    - rewrite <- !v_fz, H. reflexivity.
  Qed.
  Lemma fz_0 : fz 0 = fzero. Proof. reflexivity. Qed.
  Lemma fz_1 : fz 1 = fone. Proof. reflexivity. Qed.
  Lemma fz_add a b : fz (a + b) = fadd (fz a) (fz b).
  Proof.
    apply (ol_inj _ _ _ OL). rewrite (ol_add _ _ _ OL), !v_fz, <- Zplus_mod. reflexivity.
  Qed.
  Lemma fz_mul a b : fz (a * b) = fmul (fz a) (fz b).
  Proof.
    apply (ol_inj _ _ _ OL). rewrite (ol_mul _ _ _ OL), !v_fz, <- Zmult_mod. reflexivity.
  Qed.
  Lemma fz_sub a b : fz (a - b) = fsub (fz a) (fz b).
  Proof.
    apply (ol_inj _ _ _ OL). rewrite (ol_sub _ _ _ OL), !v_fz, <- Zminus_mod. reflexivity.
  Qed.
  Lemma fz_opp a : fz (- a) = fneg (fz a).
  Proof. replace (- a) with (0 - a) by lia. rewrite fz_sub, fz_0. ring. Qed.
  Lemma fz_double a : fadd (fz a) (fz a) = fz (2 * a).
  Proof. rewrite <- fz_add. f_equal. lia. Qed.
  Lemma fz_inj a b : 0 <= a < p -> 0 <= b < p -> fz a = fz b -> a = b.
  Proof. intros Ha Hb E. apply fz_eq in E. rewrite !Z.mod_small in E by lia. exact E. Qed.
  Lemma fz_pow_zpow a e : 0 <= e -> fz (a ^ e) = zpow (fz a) e.
  Proof.
    intro He. pattern e. apply natlike_ind; [reflexivity| |exact He].
    intros x Hx IH. rewrite Z.pow_succ_r by exact Hx.
    rewrite fz_mul, IH, (zpow_succ OL) by exact Hx. reflexivity.
  Qed.
End ZtoF.

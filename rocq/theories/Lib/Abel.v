(** A decision procedure for equalities between Z-linear combinations in an
    abelian group: reify both sides, compare the coefficients with [ring]. *)
From Coq Require Import ZArith List Lia.
From Verif Require Import Lib.AbGroup.
Import ListNotations.
Open Scope Z_scope.

Inductive gexp := GA (n : nat) | GZ | GP (a b : gexp) | GN (a : gexp) | GM (z : Z) (a : gexp).

Section Abel.
  Context {G : AbGroup}.
  Fixpoint geval (env : list G) (e : gexp) : G :=
    match e with
    | GA n => nth n env g0
    | GZ => g0
    | GP a b => gp (geval env a) (geval env b)
    | GN a => gn (geval env a)
    | GM z a => zmul z (geval env a)
    end.
  Fixpoint gcoef (e : gexp) (i : nat) : Z :=
    match e with
    | GA n => if Nat.eqb n i then 1 else 0
    | GZ => 0
    | GP a b => gcoef a i + gcoef b i
    | GN a => - gcoef a i
    | GM z a => z * gcoef a i
    end.
  Fixpoint lin (env : list G) (f : nat -> Z) : G :=
    match env with [] => g0 | g :: env => gp (zmul (f O) g) (lin env (fun i => f (S i))) end.
  Lemma lin_ext env f h : (forall i, (i < length env)%nat -> f i = h i) -> lin env f = lin env h.
  Proof.
    revert f h. induction env as [|g env IH]; intros f h H; cbn [lin]; [reflexivity|].
    rewrite (H O) by (cbn; lia). f_equal. apply IH. intros i Hi. apply H. cbn. lia.
  Qed.
  Lemma lin_0 env : lin env (fun _ => 0) = g0.
  Proof. induction env as [|g env IH]; cbn [lin]; [reflexivity|]. rewrite zmul_0, IH. apply gp_0_l. Qed.
  Lemma lin_add env f h : lin env (fun i => f i + h i) = gp (lin env f) (lin env h).
  Proof.
    revert f h. induction env as [|g env IH]; intros f h; cbn [lin]; [symmetry; apply gp_0_l|].
    rewrite zmul_add, IH. apply gp_swap.
  Qed.
  Lemma lin_mul env z f : lin env (fun i => z * f i) = zmul z (lin env f).
  Proof.
    revert f. induction env as [|g env IH]; intros f; cbn [lin]; [symmetry; apply zmul_g0|].
    rewrite zmul_mul, IH, zmul_gp. reflexivity.
  Qed.
  Lemma lin_atom env n : lin env (fun i => if Nat.eqb n i then 1 else 0) = nth n env g0.
  Proof.
    revert n. induction env as [|g env IH]; intro n; [destruct n; reflexivity|]. cbn [lin nth].
    destruct n as [|n]; cbn [Nat.eqb].
    - rewrite zmul_1, lin_0. apply gp_0_r.
    - rewrite zmul_0, gp_0_l. apply IH.
  Qed.
  Lemma geval_lin env e : geval env e = lin env (gcoef e).
  Proof.
    induction e as [n| |a IHa b IHb|a IHa|z a IHa]; cbn [geval gcoef].
    - symmetry. apply lin_atom.
    - symmetry. apply lin_0.
    - rewrite lin_add, IHa, IHb. reflexivity.
    - rewrite (lin_ext env (fun i => - gcoef a i) (fun i => (-1) * gcoef a i)) by (intros; lia).
      rewrite lin_mul, IHa. change (-1) with (- (1)). rewrite zmul_opp, zmul_1. reflexivity.
    - rewrite lin_mul, IHa. reflexivity.
  Qed.
  Fixpoint coefs_eq (n : nat) (a b : gexp) : Prop :=
    match n with O => True | S n => coefs_eq n a b /\ gcoef a n = gcoef b n end.
  Lemma abel_sound env a b : coefs_eq (length env) a b -> geval env a = geval env b.
  Proof.
    intro H. rewrite !geval_lin. apply lin_ext. generalize dependent (length env). intro n.
    induction n as [|n IH]; intros H i Hi; [lia|]. destruct H as [H1 H2].
    destruct (Nat.eq_dec i n) as [->|Hne]; [exact H2|]. apply IH; [exact H1|lia].
  Qed.
End Abel.

Ltac abel_index x env :=
  match env with
  | x :: _ => constr:(O)
  | _ :: ?env => let n := abel_index x env in constr:(S n)
  end.
Ltac abel_atoms env t :=
  match t with
  | g0 => env
  | gp ?a ?b => let env := abel_atoms env a in abel_atoms env b
  | gn ?a => abel_atoms env a
  | zmul ?z ?a => abel_atoms env a
  | _ => match env with
         | context [t :: _] => env
         | _ => constr:(t :: env)
         end
  end.
Ltac abel_reify env t :=
  match t with
  | g0 => constr:(GZ)
  | gp ?a ?b => let a := abel_reify env a in let b := abel_reify env b in constr:(GP a b)
  | gn ?a => let a := abel_reify env a in constr:(GN a)
  | zmul ?z ?a => let a := abel_reify env a in constr:(GM z a)
  | _ => let n := abel_index t env in constr:(GA n)
  end.
(** leaves the equalities of coefficients *)
Ltac abel_start :=
  match goal with
  | |- @eq (GT ?G) ?a ?b =>
      let env := abel_atoms (@nil (GT G)) a in
      let env := abel_atoms env b in
      let a' := abel_reify env a in
      let b' := abel_reify env b in
      change (@geval G env a' = @geval G env b'); apply abel_sound; cbn [length coefs_eq gcoef Nat.eqb];
      repeat match goal with |- _ /\ _ => split | |- True => exact I end
  end.
Ltac abel := abel_start; ring.

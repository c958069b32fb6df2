(** Expression trees over the operators on coefficients, linear combinations,
    [Num] and [Combination]: what the code builds, and what it should mean. *)
From Coq Require Import List ZArith.
From Verif Require Import Model.FieldTrait Model.Circuits Model.Num Spec.CircuitSpec.
Import ListNotations.
Open Scope nat_scope.

Section Expr.
  Context {F : Field}.

  (** Coefficients *)
  Inductive cexp :=
  | KZero | KOne | KNegOne | KFull (x : F)
  | KNeg (c : cexp) | KMulF (c : cexp) (x : F) | KMul (c d : cexp) | KDouble (c : cexp).
  Fixpoint cbuild (e : cexp) : Coeff F :=
    match e with
    | KZero => CZero | KOne => COne | KNegOne => CNegOne | KFull x => CFull x
    | KNeg c => coeff_neg (cbuild c)
    | KMulF c x => coeff_mul_f (cbuild c) x
    | KMul c d => coeff_mul (cbuild c) (cbuild d)
    | KDouble c => coeff_double (cbuild c)
    end.
  Fixpoint cmean (e : cexp) : F :=
    match e with
    | KZero => fzero | KOne => fone | KNegOne => fneg fone | KFull x => x
    | KNeg c => fneg (cmean c)
    | KMulF c x => fmul (cmean c) x
    | KMul c d => fmul (cmean c) (cmean d)
    | KDouble c => fadd (cmean c) (cmean c)
    end.

  (** Linear combinations *)
  Inductive lexp :=
  | LZero | LVar (x : Var)
  | LAddV (e : lexp) (x : Var) | LSubV (e : lexp) (x : Var)
  | LAddCV (e : lexp) (c : cexp) (x : Var) | LSubCV (e : lexp) (c : cexp) (x : Var)
  | LAdd (e f : lexp) | LSub (e f : lexp)
  | LAddC (e : lexp) (c : cexp) (f : lexp) | LSubC (e : lexp) (c : cexp) (f : lexp).
  Fixpoint lbuild (e : lexp) : LC F :=
    match e with
    | LZero => lc_zero | LVar x => lc_from x
    | LAddV e x => lc_add_v (lbuild e) x | LSubV e x => lc_sub_v (lbuild e) x
    | LAddCV e c x => lc_add_cv (lbuild e) (cbuild c) x
    | LSubCV e c x => lc_sub_cv (lbuild e) (cbuild c) x
    | LAdd e f => lc_add_lc (lbuild e) (lbuild f) | LSub e f => lc_sub_lc (lbuild e) (lbuild f)
    | LAddC e c f => lc_add_clc (lbuild e) (cbuild c) (lbuild f)
    | LSubC e c f => lc_sub_clc (lbuild e) (cbuild c) (lbuild f)
    end.
  Fixpoint lmean (w : assignment F) (e : lexp) : F :=
    match e with
    | LZero => fzero | LVar x => w x
    | LAddV e x => fadd (lmean w e) (w x) | LSubV e x => fsub (lmean w e) (w x)
    | LAddCV e c x => fadd (lmean w e) (fmul (cmean c) (w x))
    | LSubCV e c x => fsub (lmean w e) (fmul (cmean c) (w x))
    | LAdd e f => fadd (lmean w e) (lmean w f) | LSub e f => fsub (lmean w e) (lmean w f)
    | LAddC e c f => fadd (lmean w e) (fmul (cmean c) (lmean w f))
    | LSubC e c f => fsub (lmean w e) (fmul (cmean c) (lmean w f))
    end.
  Fixpoint lvars (e : lexp) : list Var :=
    match e with
    | LZero => [] | LVar x => [x]
    | LAddV e x | LSubV e x | LAddCV e _ x | LSubCV e _ x => x :: lvars e
    | LAdd e f | LSub e f | LAddC e _ f | LSubC e _ f => lvars e ++ lvars f
    end.

  (** The wire vectors [a], [b], [c] (1-based) as an assignment. *)
  Definition in_vectors (a b c : list F) (x : Var) : Prop :=
    match x with
    | VA i => 1 <= i <= length a | VB i => 1 <= i <= length b | VC i => 1 <= i <= length c
    end.
  Definition of_vectors (a b c : list F) (x : Var) : F :=
    match x with
    | VA i => nth (i - 1) a fzero | VB i => nth (i - 1) b fzero | VC i => nth (i - 1) c fzero
    end.

  (** [Num] and [Combination] *)
  Inductive nexp :=
  | NVar (n : AllocatedNum F) | NVarC (c : cexp) (n : AllocatedNum F) | NConst (x : F)
  | NNeg (e : nexp) | NScale (e : nexp) (x : F) | NCoeff (c : cexp) (e : nexp).
  Fixpoint nbuild (e : nexp) : Num F :=
    match e with
    | NVar n => n_from n | NVarC c n => n_from_c (cbuild c) n | NConst x => n_constant x
    | NNeg e => n_neg (nbuild e) | NScale e x => n_scale (nbuild e) x
    | NCoeff c e => n_from_cn (cbuild c) (nbuild e)
    end.
  Fixpoint nmean (val : AllocatedNum F -> F) (e : nexp) : F :=
    match e with
    | NVar n => val n | NVarC c n => fmul (cmean c) (val n) | NConst x => x
    | NNeg e => fneg (nmean val e) | NScale e x => fmul (nmean val e) x
    | NCoeff c e => fmul (cmean c) (nmean val e)
    end.
  Fixpoint nnums (e : nexp) : list (AllocatedNum F) :=
    match e with
    | NVar n | NVarC _ n => [n] | NConst _ => []
    | NNeg e | NScale e _ | NCoeff _ e => nnums e
    end.

  Inductive bexp :=
  | BZero | BFromNum (n : AllocatedNum F) | BFrom (e : nexp)
  | BAdd (e f : bexp) | BAddNum (e : bexp) (n : AllocatedNum F)
  | BSubNum (e : bexp) (n : AllocatedNum F) | BAddN (e : bexp) (n : nexp)
  | BAddCNum (e : bexp) (c : cexp) (n : AllocatedNum F) | BAddCN (e : bexp) (c : cexp) (n : nexp)
  | BScale (e : bexp) (x : F).
  Fixpoint bbuild (e : bexp) : Combination F :=
    match e with
    | BZero => comb_zero | BFromNum n => comb_from_num n | BFrom e => comb_from (nbuild e)
    | BAdd e f => comb_add (bbuild e) (bbuild f)
    | BAddNum e n => comb_add_num (bbuild e) n | BSubNum e n => comb_sub_num (bbuild e) n
    | BAddN e n => comb_add_n (bbuild e) (nbuild n)
    | BAddCNum e c n => comb_add_cnum (bbuild e) (cbuild c) n
    | BAddCN e c n => comb_add_cn (bbuild e) (cbuild c) (nbuild n)
    | BScale e x => comb_scale (bbuild e) x
    end.
  Fixpoint bmean (val : AllocatedNum F -> F) (e : bexp) : F :=
    match e with
    | BZero => fzero | BFromNum n => val n | BFrom e => nmean val e
    | BAdd e f => fadd (bmean val e) (bmean val f)
    | BAddNum e n => fadd (bmean val e) (val n) | BSubNum e n => fsub (bmean val e) (val n)
    | BAddN e n => fadd (bmean val e) (nmean val n)
    | BAddCNum e c n => fadd (bmean val e) (fmul (cmean c) (val n))
    | BAddCN e c n => fadd (bmean val e) (fmul (cmean c) (nmean val n))
    | BScale e x => fmul (bmean val e) x
    end.
  Fixpoint bnums (e : bexp) : list (AllocatedNum F) :=
    match e with
    | BZero => [] | BFromNum n => [n] | BFrom e => nnums e
    | BAdd e f => bnums e ++ bnums f
    | BAddNum e n | BSubNum e n | BAddCNum e _ n => n :: bnums e
    | BAddN e n | BAddCN e _ n => nnums n ++ bnums e
    | BScale e _ => bnums e
    end.
End Expr.
Arguments cexp F : clear implicits. Arguments lexp F : clear implicits.
Arguments nexp F : clear implicits. Arguments bexp F : clear implicits.

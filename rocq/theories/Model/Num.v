(** src/gadgets/num.rs *)
From Coq Require Import String List Bool ZArith.
From Verif Require Import Model.FieldTrait Model.Circuits.
Import ListNotations.
Open Scope string_scope.
Open Scope list_scope.
Open Scope cs_scope.

Section Num.
  Context {F : Field}.
  (** [CS::ONE] *)
  Variable one : Var.

  (** [AllocatedNum]: num.rs:73-77.  [get_value] (241-243), [get_variable]
      (245-247) and [from_raw_unchecked] (163-165) are the projections and the
      constructor. *)
  Record AllocatedNum := mkNum { num_value : option F; num_var : Var }.

  (** [x.and_then(|a| y.and_then(|b| Some(f(a, b))))] *)
  Definition omap2 {A B C} (f : A -> B -> C) (x : option A) (y : option B) : option C :=
    match x, y with Some a, Some b => Some (f a b) | _, _ => None end.

  (** [constrain_pow_five]: num.rs:22-71 *)
  Definition constrain_pow_five (x : option F) : CS F (Var * Var) :=
    let x2 := option_map fsquare x in
    let x4 := option_map fsquare x2 in
    let x5 := omap2 fmul x4 x in
    '(base_var, b_var, c_var, _) <- multiply "x^2"
      (rbind (ok_or_missing x) (fun x => rbind (ok_or_missing x2) (fun x2 => Ok (x, x, x2)))) ;;
    enforce_zero (lc_sub_v (lc_from base_var) b_var) ;;;
    '(d_var, e_var, f_var, _) <- multiply "x^4"
      (rbind (ok_or_missing x2) (fun x2 => rbind (ok_or_missing x4) (fun x4 => Ok (x2, x2, x4)))) ;;
    enforce_zero (lc_sub_v (lc_from c_var) d_var) ;;;
    enforce_zero (lc_sub_v (lc_from c_var) e_var) ;;;
    '(g_var, h_var, result_var, _) <- multiply "x^5"
      (rbind (ok_or_missing x) (fun x => rbind (ok_or_missing x4) (fun x4 =>
       rbind (ok_or_missing x5) (fun x5 => Ok (x4, x, x5))))) ;;
    enforce_zero (lc_sub_v (lc_from f_var) g_var) ;;;
    enforce_zero (lc_sub_v (lc_from base_var) h_var) ;;;
    ret (base_var, result_var).

  (** [one]: num.rs:80-88 *)
  Definition num_one : AllocatedNum := mkNum (Some fone) one.

  (** [alloc]: num.rs:90-102 (the closure is run before the call) *)
  Definition num_alloc (value : res F) : CS F AllocatedNum :=
    '(var, _) <- alloc "num" value ;;
    ret (mkNum (ok value) var).

  (** [alloc_input]: num.rs:104-116 *)
  Definition num_alloc_input (value : res F) : CS F AllocatedNum :=
    '(var, _) <- alloc_input "input variable" value ;;
    ret (mkNum (ok value) var).

  (** [inputize]: num.rs:118-133 *)
  Definition num_inputize (self : AllocatedNum) : CS F AllocatedNum :=
    '(var, _) <- alloc_input "input variable" (ok_or_missing (num_value self)) ;;
    enforce_zero (lc_sub_v (lc_from (num_var self)) var) ;;;
    ret (mkNum (num_value self) var).

  (** [mul]: num.rs:135-161 *)
  Definition num_mul (self other : AllocatedNum) : CS F AllocatedNum :=
    let product := omap2 fmul (num_value self) (num_value other) in
    '(l, r, o, _) <- multiply "mul"
      (rbind (ok_or_missing (num_value self)) (fun l =>
       rbind (ok_or_missing (num_value other)) (fun r =>
       rbind (ok_or_missing product) (fun o => Ok (l, r, o))))) ;;
    enforce_zero (lc_sub_v (lc_from (num_var self)) l) ;;;
    enforce_zero (lc_sub_v (lc_from (num_var other)) r) ;;;
    ret (mkNum product o).

  (** [alloc_and_square]: num.rs:167-195 *)
  Definition num_alloc_and_square (value : res F) : CS F (AllocatedNum * AllocatedNum) :=
    '(a, b, c, st) <- multiply "alloc_and_square"
      (rbind value (fun value => Ok (value, value, fsquare value))) ;;
    let value_sq := option_map (fun '(_, _, sq) => sq) st in
    enforce_zero (lc_sub_v (lc_from a) b) ;;;
    ret (mkNum (ok value) a, mkNum value_sq c).

  (** [lc]: num.rs:249-251 *)
  Definition num_lc (self : AllocatedNum) : LC F := lc_from (num_var self).

  (** [invert]: num.rs:253-288.  [AllocatedNum::alloc] always runs the closure,
      so [newval] is set exactly when the inverse exists. *)
  Definition num_invert (self : AllocatedNum) : CS F AllocatedNum :=
    let value :=
      rbind (ok_or_missing (num_value self)) (fun v =>
      match f_invert v with Some tmp => Ok tmp | None => Err Unsatisfiable end) in
    let newval := ok value in
    newnum <- namespace "inverse" (num_alloc value) ;;
    '(a, b, c, _) <- multiply "invert"
      (rbind (ok_or_missing newval) (fun x =>
       rbind (ok_or_missing (num_value self)) (fun y => Ok (x, y, fone)))) ;;
    enforce_zero (lc_sub_v (lc_from a) (num_var newnum)) ;;;
    enforce_zero (lc_sub_v (lc_from b) (num_var self)) ;;;
    enforce_zero (lc_sub_v (lc_from c) one) ;;;
    ret newnum.

  (** [sqrt]: num.rs:290-322 *)
  Definition num_sqrt (self : AllocatedNum) : CS F AllocatedNum :=
    let value :=
      rbind (ok_or_missing (num_value self)) (fun v =>
      match f_sqrt v with Some tmp => Ok tmp | None => Err Unsatisfiable end) in
    let newval := ok value in
    newnum <- namespace "sqrt" (num_alloc value) ;;
    '(a, b, c, _) <- multiply "square root check"
      (rbind (ok_or_missing newval) (fun x =>
       rbind (ok_or_missing newval) (fun y =>
       rbind (ok_or_missing (num_value self)) (fun z => Ok (x, y, z))))) ;;
    enforce_zero (lc_sub_v (lc_from a) (num_var newnum)) ;;;
    enforce_zero (lc_sub_v (lc_from b) (num_var newnum)) ;;;
    enforce_zero (lc_sub_v (lc_from c) (num_var self)) ;;;
    ret newnum.

  (** [Num]: num.rs:338-342 *)
  Inductive Num := NConstant (c : Coeff F) | NAllocated (c : Coeff F) (n : AllocatedNum).

  (** [Neg]: 344-353; [From<AllocatedNum>]: 355-359; [From<(Coeff, AllocatedNum)>]:
      361-365; [From<(Coeff, Num)>]: 367-374; [scale]: 377-382; [constant]: 384-386;
      [is_constant]: 388-393; [value]: 395-400; [lc]: 402-408 (all num.rs) *)
  Definition n_neg (n : Num) : Num :=
    match n with
    | NConstant c => NConstant (coeff_neg c)
    | NAllocated c v => NAllocated (coeff_neg c) v
    end.
  Definition n_from (n : AllocatedNum) : Num := NAllocated COne n.
  Definition n_from_c (c : Coeff F) (n : AllocatedNum) : Num := NAllocated c n.
  Definition n_from_cn (c : Coeff F) (n : Num) : Num :=
    match n with
    | NConstant coeff => NConstant (coeff_mul c coeff)
    | NAllocated coeff v => NAllocated (coeff_mul c coeff) v
    end.
  Definition n_scale (n : Num) (val : F) : Num :=
    match n with
    | NConstant coeff => NConstant (coeff_mul_f coeff val)
    | NAllocated coeff v => NAllocated (coeff_mul_f coeff val) v
    end.
  Definition n_constant (val : F) : Num := NConstant (CFull val).
  Definition n_is_constant (n : Num) : bool :=
    match n with NConstant _ => true | _ => false end.
  Definition n_value (n : Num) : option F :=
    match n with
    | NConstant v => Some (coeff_value v)
    | NAllocated coeff var =>
        option_map (fun v => coeff_value (coeff_mul_f coeff v)) (num_value var)
    end.
  Definition n_lc (n : Num) : LC F :=
    match n with
    | NConstant v => lc_add_cv lc_zero v one
    | NAllocated coeff num => lc_add_cv lc_zero coeff (num_var num)
    end.

  (** [Combination]: num.rs:411-415 *)
  Record Combination := mkComb { comb_value : option F; comb_terms : list Num }.

  (** [From<AllocatedNum>]: 417-424; [From<Num>]: 426-433; [Add<Combination>]: 435-450;
      [Add<AllocatedNum>], [AddAssign<AllocatedNum>]: 452-469; [Sub<AllocatedNum>]:
      471-486; [Add<Num>], [AddAssign<Num>]: 488-505; [Add<(Coeff, AllocatedNum)>]:
      507-522; [Add<(Coeff, Num)>]: 524-542; [zero]: 545-550; [scale]: 552-557;
      [lc]: 563-571 (all num.rs) *)
  Definition comb_from_num (n : AllocatedNum) : Combination :=
    mkComb (num_value n) [n_from n].
  Definition comb_from (n : Num) : Combination := mkComb (n_value n) [n].
  Definition comb_add (self other : Combination) : Combination :=
    mkComb (omap2 fadd (comb_value self) (comb_value other))
           (comb_terms self ++ comb_terms other).
  Definition comb_add_num (self : Combination) (other : AllocatedNum) : Combination :=
    mkComb (omap2 fadd (comb_value self) (num_value other))
           (comb_terms self ++ [n_from other]).
  Definition comb_sub_num (self : Combination) (other : AllocatedNum) : Combination :=
    mkComb (omap2 fsub (comb_value self) (num_value other))
           (comb_terms self ++ [n_neg (n_from other)]).
  Definition comb_add_n (self : Combination) (other : Num) : Combination :=
    mkComb (omap2 fadd (comb_value self) (n_value other))
           (comb_terms self ++ [other]).
  Definition comb_add_cnum (self : Combination) (c : Coeff F) (other : AllocatedNum)
    : Combination :=
    mkComb (omap2 (fun a b => fadd a (fmul (coeff_value c) b)) (comb_value self) (num_value other))
           (comb_terms self ++ [n_from_c c other]).
  Definition comb_add_cn (self : Combination) (c : Coeff F) (other : Num) : Combination :=
    mkComb (omap2 (fun a b => fadd a (fmul (coeff_value c) b)) (comb_value self) (n_value other))
           (comb_terms self ++ [n_from_cn c other]).
  Definition comb_zero : Combination := mkComb (Some fzero) [].
  Definition comb_scale (self : Combination) (by_ : F) : Combination :=
    mkComb (option_map (fun v => fmul v by_) (comb_value self))
           (map (fun t => n_scale t by_) (comb_terms self)).
  Definition comb_lc (self : Combination) : LC F :=
    fold_left (fun acc term => lc_add_lc acc (n_lc term)) (comb_terms self) lc_zero.

  (** [any_allocated]: num.rs:577, 646, 661 *)
  Definition any_allocated (self : Combination) : bool :=
    existsb (fun n => negb (n_is_constant n)) (comb_terms self).

  (** [evaluate]: num.rs:573-591 *)
  Definition comb_evaluate (self : Combination) : CS F Num :=
    if any_allocated self then
      out <- namespace "combination" (num_alloc (ok_or_missing (comb_value self))) ;;
      enforce_zero (lc_sub_lc (num_lc out) (comb_lc self)) ;;;
      ret (n_from out)
    else
      base_value <- lift (ok_or_missing (comb_value self)) ;;
      ret (n_constant base_value).

  (** [mul]: num.rs:593-617 *)
  Definition comb_mul (self other : Combination) : CS F AllocatedNum :=
    '(l, r, o, st) <- multiply "mul"
      (rbind (ok_or_missing (comb_value self)) (fun l =>
       rbind (ok_or_missing (comb_value other)) (fun r => Ok (l, r, fmul l r)))) ;;
    let value := option_map (fun '(_, _, o) => o) st in
    enforce_zero (lc_sub_v (comb_lc self) l) ;;;
    enforce_zero (lc_sub_v (comb_lc other) r) ;;;
    ret (mkNum value o).

  (** [square]: num.rs:619-640 *)
  Definition comb_square (self : Combination) : CS F AllocatedNum :=
    '(l, r, o, st) <- multiply "square"
      (rbind (ok_or_missing (comb_value self)) (fun l => Ok (l, l, fsquare l))) ;;
    let value := option_map (fun '(_, _, c) => c) st in
    enforce_zero (lc_sub_v (comb_lc self) l) ;;;
    enforce_zero (lc_sub_v (comb_lc self) r) ;;;
    ret (mkNum value o).

  (** [AllocatedNum::rescue_alpha]: num.rs:197-217 *)
  Definition num_rescue_alpha (base : Combination) : CS F AllocatedNum :=
    let base_value := comb_value base in
    let result_value := option_map (fun n => pow F n (L4 (f_RESCUE_ALPHA F) 0 0 0)) base_value in
    assert_ (f_RESCUE_ALPHA F =? 5)%Z ;;;
    '(base_var, result_var) <- namespace "constrain base^5" (constrain_pow_five base_value) ;;
    enforce_zero (lc_sub_v (comb_lc base) base_var) ;;;
    ret (mkNum result_value result_var).

  (** [AllocatedNum::rescue_invalpha]: num.rs:219-239 *)
  Definition num_rescue_invalpha (base : Combination) : CS F AllocatedNum :=
    let base_value := comb_value base in
    let result_value := option_map (fun n => pow F n (f_RESCUE_INVALPHA F)) base_value in
    assert_ (f_RESCUE_ALPHA F =? 5)%Z ;;;
    '(result_var, base_var) <- namespace "constrain result^5" (constrain_pow_five result_value) ;;
    enforce_zero (lc_sub_v (comb_lc base) base_var) ;;;
    ret (mkNum result_value result_var).

  (** [Combination::rescue_alpha]: num.rs:642-655 *)
  Definition comb_rescue_alpha (self : Combination) : CS F Num :=
    if any_allocated self then
      n <- num_rescue_alpha self ;; ret (n_from n)
    else
      base_value <- lift (ok_or_missing (comb_value self)) ;;
      ret (n_constant (pow F base_value (L4 (f_RESCUE_ALPHA F) 0 0 0))).

  (** [Combination::rescue_invalpha]: num.rs:657-670 *)
  Definition comb_rescue_invalpha (self : Combination) : CS F Num :=
    if any_allocated self then
      n <- num_rescue_invalpha self ;; ret (n_from n)
    else
      base_value <- lift (ok_or_missing (comb_value self)) ;;
      ret (n_constant (pow F base_value (f_RESCUE_INVALPHA F))).
End Num.
Arguments AllocatedNum F : clear implicits.
Arguments Num F : clear implicits.
Arguments Combination F : clear implicits.

(** Rules for [alike]. *)
From Coq Require Import String List Bool Arith ZArith.
From Verif Require Import Model.FieldTrait Model.Circuits Model.Num Model.Boolean Model.Recursion Spec.UniformSpec.
Import ListNotations.
Open Scope list_scope.

Section Rules.
  Context {F : Field}.
  Variables (inp : Prop) (V : Var -> Prop).
  Local Notation alike := (@alike F inp V _ _).

  Lemma fails_pbind {A B} (p : CS F A) (f : res A -> CS F B) : (forall e, fails (f (Err e))) -> fails p -> fails (pbind p f).
  Proof. intros Hf H. induction H; cbn [pbind]; [apply Hf|constructor; assumption|constructor; assumption]. Qed.
  Lemma alike_pbind {A B A' B'} (R : A -> B -> Prop) (R' : A' -> B' -> Prop) (p : CS F A) (q : CS F B) f g :
    (forall e, fails (f (Err e))) -> alike R p q -> (forall a b, R a b -> alike R' (f (Ok a)) (g (Ok b))) -> alike R' (pbind p f) (pbind q g).
  Proof.
    intros Hf H H1. induction H; cbn [pbind].
    - apply H1. assumption.
    - apply al_fails, fails_pbind; assumption.
    - apply al_panic.
    - apply al_alloc; [intro e; apply fails_pbind; auto|auto].
    - apply al_input; [assumption|intro e; apply fails_pbind; auto|auto].
    - apply al_lc; assumption.
    - apply al_mul; [intro e; apply fails_pbind; auto|auto].
    - apply al_push; assumption.
    - apply al_pop; assumption.
  Qed.
  Lemma alike_bind {A B A' B'} (R : A -> B -> Prop) (R' : A' -> B' -> Prop) (p : CS F A) (q : CS F B) f g :
    alike R p q -> (forall a b, R a b -> alike R' (f a) (g b)) -> alike R' (bind p f) (bind q g).
  Proof. intros H H1. unfold bind. eapply alike_pbind; [intro e; constructor|exact H|exact H1]. Qed.
  Lemma alike_ns {A B} (R : A -> B -> Prop) s s' (p : CS F A) (q : CS F B) : alike R p q -> alike R (namespace s p) (namespace s' q).
  Proof.
    intro H. unfold namespace. apply al_push. eapply alike_pbind; [intro e; constructor; constructor|exact H|].
    intros a b Hab. apply al_pop, al_ret, Hab.
  Qed.
  Lemma alike_nsb {A B A' B'} (R : A -> B -> Prop) (R' : A' -> B' -> Prop) s s' (p : CS F A) (q : CS F B) f g :
    alike R p q -> (forall a b, R a b -> alike R' (f a) (g b)) -> alike R' (bind (namespace s p) f) (bind (namespace s' q) g).
  Proof. intro H. apply alike_bind, alike_ns, H. Qed.
  Lemma alike_ret {A B} (R : A -> B -> Prop) a b : R a b -> alike R (ret (F := F) a) (ret b).
  Proof. apply al_ret. Qed.
  Lemma alike_weaken {A B} (R R' : A -> B -> Prop) p q : alike R p q -> (forall a b, R a b -> R' a b) -> alike R' p q.
  Proof.
    intros H HR. induction H; [apply al_ret; auto|apply al_fails; assumption|apply al_panic|apply al_alloc; auto|apply al_input; auto|apply al_lc; auto|
      apply al_mul; auto|apply al_push; assumption|apply al_pop; assumption].
  Qed.
  Lemma alike_mulb {A B} (R : A -> B -> Prop) s s' v v' f g :
    (forall x y z st, V x -> V y -> V z -> alike R (f (x, y, z, st)) (g (x, y, z, None))) ->
    alike R (bind (multiply s v) f) (bind (multiply s' v') g).
  Proof.
    intro H. unfold bind, multiply. cbn [pbind]. apply al_mul; [intro e; constructor|].
    intros x y z c Hx Hy Hz. unfold ret. cbn [pbind]. apply (H x y z (stored c v)); assumption.
  Qed.
  Lemma alike_allocb {A B} (R : A -> B -> Prop) s s' v v' f g :
    (forall x st, V x -> alike R (f (x, st)) (g (x, None))) -> alike R (bind (alloc s v) f) (bind (alloc s' v') g).
  Proof.
    intro H. unfold bind, alloc. cbn [pbind]. apply al_alloc; [intro e; constructor|].
    intros x c Hx. unfold ret. cbn [pbind]. apply (H x (stored c v)); assumption.
  Qed.
  Lemma alike_inputb {A B} (R : A -> B -> Prop) s s' v v' f g : inp ->
    (forall x st, V x -> alike R (f (x, st)) (g (x, stored true v'))) -> alike R (bind (alloc_input s v) f) (bind (alloc_input s' v') g).
  Proof.
    intros Hi H. unfold bind, alloc_input. cbn [pbind]. apply al_input; [exact Hi|intro e; constructor|].
    intros x c Hx. unfold ret. cbn [pbind]. apply (H x (stored c v)); assumption.
  Qed.
  (** equal linear combinations in the variables of [V] *)
  Definition RLC (l l' : LC F) : Prop := l = l' /\ Forall (fun t => V (fst t)) l.
  Lemma alike_lc l l' : RLC l l' -> alike (fun _ _ => True) (enforce_zero l) (enforce_zero l').
  Proof. intros [<- H]. apply al_lc; [exact H|]. apply alike_ret, I. Qed.
  Lemma alike_lcb {A B} (R : A -> B -> Prop) l l' f g : RLC l l' -> alike R (f tt) (g tt) -> alike R (bind (enforce_zero l) f) (bind (enforce_zero l') g).
  Proof. intros H H1. eapply alike_bind; [exact (alike_lc _ _ H)|]. intros [] [] _. exact H1. Qed.
  Lemma alike_assertb {A B} (R : A -> B -> Prop) b b' f g : (b = true -> b' = true) -> (b = true -> alike R (f tt) (g tt)) ->
    alike R (bind (assert_ b) f) (bind (assert_ b') g).
  Proof.
    intros H H1. destruct b; [rewrite (H eq_refl); exact (H1 eq_refl)|]. apply al_panic.
  Qed.
  Lemma alike_unwrapb {A B A' B'} (S : A -> B -> Prop) (R : A' -> B' -> Prop) o o' f g :
    (forall a, o = Some a -> exists b, o' = Some b /\ S a b) -> (forall a b, S a b -> alike R (f a) (g b)) ->
    alike R (bind (unwrap o) f) (bind (unwrap o') g).
  Proof.
    intros H H1. destruct o as [a|]; [|apply al_panic]. destruct (H a eq_refl) as (b & -> & Hab). exact (H1 a b Hab).
  Qed.
  Lemma alike_foldM {A A' B B'} (RA : A -> A' -> Prop) (RB : B -> B' -> Prop) f g xs ys :
    (forall a a' x y, RB a a' -> RA x y -> alike RB (f a x) (g a' y)) -> Forall2 RA xs ys ->
    forall a a', RB a a' -> alike RB (foldM f xs a) (foldM g ys a').
  Proof.
    intros H H2. induction H2; intros a a' Ha; cbn [foldM]; [apply alike_ret, Ha|].
    eapply alike_bind; [apply H; eassumption|]. intros b b' Hb. apply IHForall2, Hb.
  Qed.
  (** the same fold on both sides, over the same list *)
  Lemma alike_fold1 {A B B'} (RB : B -> B' -> Prop) f g (xs : list A) :
    (forall a a' x, In x xs -> RB a a' -> alike RB (f a x) (g a' x)) -> forall a a', RB a a' -> alike RB (foldM f xs a) (foldM g xs a').
  Proof.
    intro H. induction xs as [|x xs IH]; intros a a' Ha; cbn [foldM]; [apply alike_ret, Ha|].
    eapply alike_bind; [apply H; [left; reflexivity|exact Ha]|]. intros b b' Hb. apply IH; [|exact Hb]. intros c c' y Hy. apply H. right. exact Hy.
  Qed.
  Lemma alike_mapM {A A' B B'} (RA : A -> A' -> Prop) (RB : B -> B' -> Prop) f g xs ys :
    (forall x y, RA x y -> alike RB (f x) (g y)) -> Forall2 RA xs ys -> alike (Forall2 RB) (mapM f xs) (mapM g ys).
  Proof.
    intros H H2. induction H2; cbn [mapM]; [apply alike_ret; constructor|].
    eapply alike_bind; [apply H; eassumption|]. intros b b' Hb. eapply alike_bind; [exact IHForall2|]. intros c c' Hc.
    apply alike_ret. constructor; assumption.
  Qed.

  (** *** numbers and bits *)
  Definition Rnum (n n' : AllocatedNum F) : Prop := num_var n = num_var n' /\ V (num_var n).
  Local Notation Rbit := (same_bit V).
  Definition RNum (n n' : Num F) : Prop :=
    match n, n' with
    | NConstant c, NConstant c' => c = c'
    | NAllocated c v, NAllocated c' v' => c = c' /\ Rnum v v'
    | _, _ => False
    end.
  Definition Rbool (b b' : Boolean) : Prop :=
    match b, b' with
    | Is v, Is v' | Not v, Not v' => Rbit v v'
    | Constant c, Constant c' => c = c'
    | _, _ => False
    end.
  Definition Rcomb (c c' : Combination F) : Prop :=
    Forall2 RNum (comb_terms c) (comb_terms c') /\ (any_allocated c = false -> comb_value c = comb_value c' /\ comb_value c <> None).

  Variable one : Var.
  Hypothesis V1 : V one.

  Lemma RLC_zero : RLC lc_zero lc_zero. Proof. split; [reflexivity|constructor]. Qed.
  Lemma RLC_add_cv l l' c c' v v' : RLC l l' -> c = c' -> v = v' -> V v -> RLC (lc_add_cv l c v) (lc_add_cv l' c' v').
  Proof. intros [<- H] <- <- Hv. split; [reflexivity|]. apply Forall_app. split; [exact H|]. constructor; [exact Hv|constructor]. Qed.
  Lemma RLC_sub_cv l l' c c' v v' : RLC l l' -> c = c' -> v = v' -> V v -> RLC (lc_sub_cv l c v) (lc_sub_cv l' c' v').
  Proof. intros H <- E Hv. apply RLC_add_cv; auto. Qed.
  Lemma RLC_add_v l l' v v' : RLC l l' -> v = v' -> V v -> RLC (lc_add_v l v) (lc_add_v l' v').
  Proof. intros. apply RLC_add_cv; auto. Qed.
  Lemma RLC_sub_v l l' v v' : RLC l l' -> v = v' -> V v -> RLC (lc_sub_v l v) (lc_sub_v l' v').
  Proof. intros. apply RLC_sub_cv; auto. Qed.
  Lemma RLC_from v v' : v = v' -> V v -> RLC (lc_from v) (lc_from v').
  Proof. intros. apply RLC_add_v; auto using RLC_zero. Qed.
  Lemma RLC_add_lc l l' m m' : RLC l l' -> RLC m m' -> RLC (lc_add_lc l m) (lc_add_lc l' m').
  Proof.
    intros [<- H] [<- Hm]. split; [reflexivity|]. unfold lc_add_lc. revert l H. induction Hm; intros l0 H0; cbn [fold_left]; [exact H0|].
    apply IHHm. apply Forall_app. split; [exact H0|]. constructor; [exact H|constructor].
  Qed.
  Lemma RLC_sub_lc l l' m m' : RLC l l' -> RLC m m' -> RLC (lc_sub_lc l m) (lc_sub_lc l' m').
  Proof.
    intros [<- H] [<- Hm]. split; [reflexivity|]. unfold lc_sub_lc. revert l H. induction Hm; intros l0 H0; cbn [fold_left]; [exact H0|].
    apply IHHm. apply Forall_app. split; [exact H0|]. constructor; [exact H|constructor].
  Qed.
  Lemma RLC_num n n' : Rnum n n' -> RLC (num_lc n) (num_lc n').
  Proof. intros [H1 H2]. apply RLC_from; assumption. Qed.
  Lemma RLC_n n n' : RNum n n' -> RLC (n_lc one n) (n_lc one n').
  Proof.
    destruct n, n'; cbn [RNum n_lc]; try tauto.
    - intros <-. apply RLC_add_cv; auto using RLC_zero.
    - intros (<- & H1 & H2). apply RLC_add_cv; auto using RLC_zero.
  Qed.
  Lemma RLC_bool b b' c : Rbool b b' -> RLC (bool_lc b one c) (bool_lc b' one c).
  Proof.
    destruct b, b'; cbn [Rbool bool_lc]; try tauto.
    - intros (H1 & H2). apply RLC_add_cv; auto using RLC_zero.
    - intros (H1 & H2). apply RLC_sub_cv; auto. apply RLC_add_cv; auto using RLC_zero.
    - intros <-. destruct c0; [|apply RLC_zero]. apply RLC_add_cv; auto using RLC_zero.
  Qed.
  Lemma RLC_comb c c' : Rcomb c c' -> RLC (comb_lc one c) (comb_lc one c').
  Proof.
    intros [H _]. unfold comb_lc. cut (forall a a', RLC a a' -> RLC (fold_left (fun acc term => lc_add_lc acc (n_lc one term)) (comb_terms c) a)
      (fold_left (fun acc term => lc_add_lc acc (n_lc one term)) (comb_terms c') a')). { intro X. apply X, RLC_zero. }
    induction H; intros a a' Ha; cbn [fold_left]; [exact Ha|]. apply IHForall2. apply RLC_add_lc; [exact Ha|]. apply RLC_n, H.
  Qed.
  Lemma RLC_bits bs bs' : Forall2 Rbit bs bs' -> forall l l' c, RLC l l' -> RLC (bits_lc l c bs) (bits_lc l' c bs').
  Proof. intro H. induction H as [|b b' bs bs' [H1 H2] Hb IH]; intros l l' c Hl; cbn [bits_lc]; [exact Hl|]. apply IH. apply RLC_add_cv; auto. Qed.
  Lemma Rnum_from_bit b b' : Rbit b b' -> Rnum (num_from_bit (F := F) b) (num_from_bit b').
  Proof. intros [H1 H2]. split; assumption. Qed.
  Lemma Rbit_one : Rbit (bit_one one) (bit_one one). Proof. split; [reflexivity|exact V1]. Qed.
  Lemma RNum_from n n' : Rnum n n' -> RNum (n_from n) (n_from n'). Proof. intro H. split; [reflexivity|exact H]. Qed.
  Lemma RNum_const x : RNum (n_constant x) (n_constant x). Proof. reflexivity. Qed.
  Lemma RNum_from_cn c n n' : RNum n n' -> RNum (n_from_cn c n) (n_from_cn c n').
  Proof. destruct n, n'; cbn; try tauto. - intros <-. reflexivity. - intros (<- & H). split; [reflexivity|exact H]. Qed.
  Lemma RNum_neg n n' : RNum n n' -> RNum (n_neg n) (n_neg n').
  Proof. destruct n, n'; cbn; try tauto. - intros <-. reflexivity. - intros (<- & H). split; [reflexivity|exact H]. Qed.
  Lemma RNum_scale n n' x : RNum n n' -> RNum (n_scale n x) (n_scale n' x).
  Proof. destruct n, n'; cbn; try tauto. - intros <-. reflexivity. - intros (<- & H). split; [reflexivity|exact H]. Qed.
  Lemma RNum_value n n' : RNum n n' -> n_is_constant n = true -> n_value n = n_value n' /\ n_value n <> None.
  Proof. destruct n, n'; cbn; try tauto; try discriminate. intros <- _. split; [reflexivity|discriminate]. Qed.
  Lemma Rcomb_any c c' : Rcomb c c' -> any_allocated c = any_allocated c'.
  Proof.
    intros [H _]. unfold any_allocated. induction H as [|x y l l' Hx H IH]; [reflexivity|]. cbn [existsb]. rewrite IH. f_equal. f_equal.
    destruct x, y; cbn in *; tauto.
  Qed.
  Lemma Rcomb_zero : Rcomb comb_zero comb_zero. Proof. split; [constructor|]. intros _. split; [reflexivity|discriminate]. Qed.
  Lemma Rcomb_from n n' : RNum n n' -> Rcomb (comb_from n) (comb_from n').
  Proof.
    intro H. split; [constructor; [exact H|constructor]|]. unfold any_allocated. cbn [comb_from comb_terms existsb comb_value].
    intro E. apply orb_false_iff in E. apply RNum_value; [exact H|]. destruct (n_is_constant n); [reflexivity|destruct E; discriminate].
  Qed.
  Lemma Rcomb_from_num n n' : Rnum n n' -> Rcomb (comb_from_num n) (comb_from_num n').
  Proof. intro H. split; [constructor; [apply RNum_from, H|constructor]|]. intro E. discriminate E. Qed.
  Lemma any_app v (l m : list (Num F)) : any_allocated (mkComb v (l ++ m)) = false -> any_allocated (mkComb v l) = false /\ any_allocated (mkComb v m) = false.
  Proof. unfold any_allocated. cbn [comb_terms]. rewrite existsb_app. apply orb_false_iff. Qed.
  Lemma any_val v v' (l : list (Num F)) : any_allocated (mkComb v l) = any_allocated (mkComb v' l). Proof. reflexivity. Qed.
  Lemma omap2_same {A B C} (f : A -> B -> C) (x x' : option A) (y y' : option B) : x = x' /\ x <> None -> y = y' /\ y <> None -> omap2 f x y = omap2 f x' y' /\ omap2 f x y <> None.
  Proof. intros [<- Hx] [<- Hy]. split; [reflexivity|]. destruct x, y; try congruence. discriminate. Qed.
  Lemma Rcomb_app (f : F -> F -> F) c c' n n' m m' (v v' : option F) : Rcomb c c' -> RNum n n' -> (n_is_constant n = true -> v = v' /\ v <> None) ->
    m = comb_terms c ++ [n] -> m' = comb_terms c' ++ [n'] ->
    Rcomb (mkComb (omap2 f (comb_value c) v) m) (mkComb (omap2 f (comb_value c') v') m').
  Proof.
    intros [H1 H2] Hn Hv -> ->. split; [cbn [comb_terms]; apply Forall2_app; [exact H1|constructor; [exact Hn|constructor]]|].
    intro E. apply any_app in E. destruct E as [E1 E2]. cbn [comb_value]. apply omap2_same; [apply H2; rewrite <- E1; reflexivity|].
    apply Hv. cbn in E2. destruct (n_is_constant n); [reflexivity|discriminate].
  Qed.
  Lemma Rcomb_add c c' d d' : Rcomb c c' -> Rcomb d d' -> Rcomb (comb_add c d) (comb_add c' d').
  Proof.
    intros [H1 H2] [H3 H4]. split; [apply Forall2_app; assumption|]. intro E. apply any_app in E. destruct E as [E1 E2].
    apply omap2_same; [apply H2|apply H4]; [rewrite <- E1|rewrite <- E2]; reflexivity.
  Qed.
  Lemma Rcomb_add_num c c' n n' : Rcomb c c' -> Rnum n n' -> Rcomb (comb_add_num c n) (comb_add_num c' n').
  Proof. intros H Hn. eapply Rcomb_app; [exact H|apply RNum_from, Hn| |reflexivity|reflexivity]. discriminate. Qed.
  Lemma Rcomb_sub_num c c' n n' : Rcomb c c' -> Rnum n n' -> Rcomb (comb_sub_num c n) (comb_sub_num c' n').
  Proof. intros H Hn. eapply Rcomb_app; [exact H|apply RNum_neg, RNum_from, Hn| |reflexivity|reflexivity]. discriminate. Qed.
  Lemma Rcomb_add_n c c' n n' : Rcomb c c' -> RNum n n' -> Rcomb (comb_add_n c n) (comb_add_n c' n').
  Proof. intros H Hn. eapply Rcomb_app; [exact H|exact Hn| |reflexivity|reflexivity]. apply RNum_value, Hn. Qed.
  Lemma Rcomb_add_cn c c' k n n' : Rcomb c c' -> RNum n n' -> Rcomb (comb_add_cn c k n) (comb_add_cn c' k n').
  Proof.
    intros H Hn. eapply Rcomb_app; [exact H|apply RNum_from_cn, Hn| |reflexivity|reflexivity]. intro E. apply RNum_value; [exact Hn|].
    destruct n; [reflexivity|discriminate].
  Qed.
  Lemma Rcomb_scale c c' x : Rcomb c c' -> Rcomb (comb_scale c x) (comb_scale c' x).
  Proof.
    intros [H1 H2]. split.
    - cbn [comb_scale comb_terms]. clear H2. induction H1; constructor; auto. apply RNum_scale; assumption.
    - intro E. cbn [comb_scale comb_value]. assert (E' : any_allocated c = false).
      { revert E. clear. unfold any_allocated. cbn [comb_scale comb_terms]. intro E. rewrite <- E. generalize (comb_terms c). induction l as [|a l IH]; [reflexivity|].
        cbn [map existsb]. rewrite IH. f_equal. destruct a; reflexivity. }
      destruct (H2 E') as [-> H3]. split; [reflexivity|]. destruct (comb_value c'); [discriminate|congruence].
  Qed.

  (** *** num.rs *)
  Lemma A_num_allocb {A B} (R : A -> B -> Prop) s s' v v' f g : (forall x, V x -> alike R (f (mkNum (ok v) x)) (g (mkNum (ok v') x))) ->
    alike R (bind (namespace s (num_alloc v)) f) (bind (namespace s' (num_alloc v')) g).
  Proof.
    intro H. apply (alike_nsb (fun n n' => exists x, V x /\ n = mkNum (ok v) x /\ n' = mkNum (ok v') x)).
    - unfold num_alloc. apply alike_allocb. intros x st Hx. apply alike_ret. exists x. repeat split. exact Hx.
    - intros a b (x & Hx & -> & ->). apply H, Hx.
  Qed.
  Lemma A_bit_allocb {A B} (R : A -> B -> Prop) s s' v v' f g : (forall x o, V x -> alike R (f (mkBit o x)) (g (mkBit None x))) ->
    alike R (bind (namespace s (bit_alloc v)) f) (bind (namespace s' (bit_alloc v')) g).
  Proof.
    intro H. apply (alike_nsb (fun n n' => exists x o, V x /\ n = mkBit o x /\ n' = mkBit None x)).
    - unfold bit_alloc. apply alike_mulb. intros x y z st Hx Hy Hz. cbn beta iota.
      apply alike_lcb; [apply RLC_sub_v; auto; apply RLC_from; auto|]. apply alike_lcb; [apply RLC_sub_v; auto; apply RLC_from; auto|].
      apply alike_ret. exists x. eexists. repeat split. exact Hx.
    - intros a b (x & o & Hx & -> & ->). apply H, Hx.
  Qed.
End Rules.

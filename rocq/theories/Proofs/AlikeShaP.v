(** The gadgets of boolean.rs, uint32.rs, uint64.rs and sha256.rs make the same calls
    whatever the values are - if every 32-bit word is all constant or has no constant bit. *)
From Coq Require Import String List Bool Arith ZArith Lia.
From Verif Require Import Model.FieldTrait Model.Circuits Model.Num Model.Boolean Model.UInt Model.Sha256 Spec.UniformSpec Proofs.AlikeP Proofs.AlikeGadgetsP.
Import ListNotations.
Open Scope list_scope. Open Scope nat_scope.
Local Notation length := List.length.
Local Notation isc := bool_is_constant.

Section Bool.
  Context {F : Field}.
  Variables (inp : Prop) (V : Var -> Prop) (one : Var).
  Hypothesis V1 : V one.
  Local Notation alike := (@alike F inp V _ _).
  Local Notation Rbit := (same_bit V).
  Local Notation Rbool := (Rbool V).

  Lemma A_bit_xor a a' b b' : Rbit a a' -> Rbit b b' -> alike Rbit (bit_xor a b) (bit_xor a' b').
  Proof. intros. unfold bit_xor. repeat astep. rel. Qed.
  Lemma A_bit_and a a' b b' : Rbit a a' -> Rbit b b' -> alike Rbit (bit_and a b) (bit_and a' b').
  Proof. intros. unfold bit_and. repeat astep. rel. Qed.
  Lemma A_bit_and_not a a' b b' : Rbit a a' -> Rbit b b' -> alike Rbit (bit_and_not one a b) (bit_and_not one a' b').
  Proof. intros. unfold bit_and_not. repeat astep. rel. Qed.
  Lemma A_bit_nor a a' b b' : Rbit a a' -> Rbit b b' -> alike Rbit (bit_nor one a b) (bit_nor one a' b').
  Proof. intros. unfold bit_nor. repeat astep. rel. Qed.
  Lemma R_not b b' : Rbool b b' -> Rbool (bool_not b) (bool_not b').
  Proof. destruct b, b'; cbn; try tauto. intros <-. reflexivity. Qed.
  Lemma R_isc b b' : Rbool b b' -> isc b = isc b'.
  Proof. destruct b, b'; cbn; tauto. Qed.
  Lemma isc_not b : isc (bool_not b) = isc b.
  Proof. destruct b; reflexivity. Qed.

  Lemma A_xor a a' b b' : Rbool a a' -> Rbool b b' -> alike (fun r r' => Rbool r r' /\ isc r = isc a && isc b) (bool_xor a b) (bool_xor a' b').
  Proof.
    intros Ha Hb. destruct a as [a|a|[|]], a' as [a'|a'|a'], b as [b|b|[|]], b' as [b'|b'|b']; cbn in Ha, Hb; try tauto; subst; cbn [bool_xor isc andb bool_not negb];
      try (apply alike_ret; split; [first [assumption|reflexivity]|reflexivity]);
      try (eapply alike_bind; [apply A_bit_xor; assumption|]; intros; apply alike_ret; split; [assumption|reflexivity]);
      (eapply alike_bind; [eapply alike_bind; [apply A_bit_xor; eassumption|]; intros r r' Hr; apply (alike_ret inp V (fun r r' => Rbool r r' /\ isc r = false)); split; [exact Hr|reflexivity]|];
       intros r r' [Hr Er]; apply alike_ret; split; [apply R_not, Hr|rewrite isc_not; exact Er]).
  Qed.
  Lemma A_and a a' b b' : Rbool a a' -> Rbool b b' -> alike (fun r r' => Rbool r r' /\ (isc a && isc b = true -> isc r = true)) (bool_and one a b) (bool_and one a' b').
  Proof.
    intros Ha Hb. destruct a as [a|a|[|]], a' as [a'|a'|a'], b as [b|b|[|]], b' as [b'|b'|b']; cbn in Ha, Hb; try tauto; subst; cbn [bool_and isc andb bool_not negb];
      try (apply alike_ret; split; [first [assumption|reflexivity]|first [reflexivity|discriminate]]);
      (eapply alike_bind; [first [apply A_bit_and; assumption|apply A_bit_and_not; assumption|apply A_bit_nor; assumption]|]; intros; apply alike_ret; split; [assumption|discriminate]).
  Qed.
  Lemma A_and' a a' b b' : Rbool a a' -> Rbool b b' -> alike (fun r r' => Rbool r r') (bool_and one a b) (bool_and one a' b').
  Proof. intros Ha Hb. eapply alike_weaken; [apply A_and; eassumption|]. cbv beta. tauto. Qed.
  Lemma A_ch_gate a a' b b' c c' v v' : Rbool a a' -> Rbool b b' -> Rbool c c' -> alike (fun r r' => Rbool r r') (sha256_ch_gate one a b c v) (sha256_ch_gate one a' b' c' v').
  Proof. intros. unfold sha256_ch_gate. repeat astep. rel. Qed.
  Lemma A_maj_gate a a' b b' c c' v v' : Rbool a a' -> Rbool b b' -> Rbool c c' -> alike (fun r r' => Rbool r r') (sha256_maj_gate one a b c v) (sha256_maj_gate one a' b' c' v').
  Proof. intros. unfold sha256_maj_gate. repeat astep. acall A_and'. intros. repeat astep. rel. Qed.
  Lemma alike_notb (m m' : CS F Boolean) : alike (fun r r' => Rbool r r') m m' ->
    alike (fun r r' => Rbool r r') (bind m (fun r => ret (bool_not r))) (bind m' (fun r => ret (bool_not r))).
  Proof. intro H. eapply alike_bind; [exact H|]. intros r r' Hr. apply alike_ret, R_not, Hr. Qed.
  (** unless all operands are constant *)
  Lemma A_ch_some a a' b b' c c' : Rbool a a' -> Rbool b b' -> Rbool c c' -> isc a && isc b && isc c = false ->
    alike (fun r r' => Rbool r r') (bool_sha256_ch one a b c) (bool_sha256_ch one a' b' c').
  Proof.
    intros Ha Hb Hc HK. destruct a as [a|a|[|]], a' as [a'|a'|a'], b as [b|b|[|]], b' as [b'|b'|b']; cbn in Ha, Hb; try tauto; subst;
      destruct c as [c|c|[|]], c' as [c'|c'|c']; cbn in Hc, HK; try tauto; try discriminate HK; subst; cbv beta iota zeta delta [bool_sha256_ch];
      first [apply alike_ret; first [assumption|reflexivity] | apply A_ch_gate; solve [assumption|reflexivity]
            | apply A_and'; cbn [bool_not negb]; solve [assumption|reflexivity] | apply alike_notb, A_and'; cbn [bool_not negb]; solve [assumption|reflexivity]].
  Qed.
  Lemma A_ch a a' b b' c c' : Rbool a a' -> Rbool b b' -> Rbool c c' ->
    alike (fun r r' => Rbool r r' /\ (isc a && isc b && isc c = true -> isc r = true)) (bool_sha256_ch one a b c) (bool_sha256_ch one a' b' c').
  Proof.
    intros Ha Hb Hc. destruct (isc a && isc b && isc c) eqn:E.
    - destruct a as [a|a|a], b as [b|b|b], c as [c|c|c]; try discriminate E. destruct a' as [a'|a'|a'], b' as [b'|b'|b'], c' as [c'|c'|c']; cbn in Ha, Hb, Hc; try tauto. subst.
      destruct a', b', c'; apply (alike_ret inp V (fun r r' => Rbool r r' /\ (true = true -> isc r = true))); split; reflexivity.
    - eapply alike_weaken; [apply A_ch_some; assumption|]. intros r r' Hr. split; [exact Hr|discriminate].
  Qed.
  Lemma A_maj_some a a' b b' c c' : Rbool a a' -> Rbool b b' -> Rbool c c' -> isc a && isc b && isc c = false ->
    alike (fun r r' => Rbool r r') (bool_sha256_maj one a b c) (bool_sha256_maj one a' b' c').
  Proof.
    intros Ha Hb Hc HK. destruct a as [a|a|[|]], a' as [a'|a'|a'], b as [b|b|[|]], b' as [b'|b'|b']; cbn in Ha, Hb; try tauto; subst;
      destruct c as [c|c|[|]], c' as [c'|c'|c']; cbn in Hc, HK; try tauto; try discriminate HK; subst; cbv beta iota zeta delta [bool_sha256_maj];
      first [apply alike_ret; first [assumption|reflexivity] | apply A_maj_gate; solve [assumption|reflexivity]
            | apply A_and'; cbn [bool_not negb]; solve [assumption|reflexivity] | apply alike_notb, A_and'; cbn [bool_not negb]; solve [assumption|reflexivity]].
  Qed.
  Lemma A_maj a a' b b' c c' : Rbool a a' -> Rbool b b' -> Rbool c c' ->
    alike (fun r r' => Rbool r r' /\ (isc a && isc b && isc c = true -> isc r = true)) (bool_sha256_maj one a b c) (bool_sha256_maj one a' b' c').
  Proof.
    intros Ha Hb Hc. destruct (isc a && isc b && isc c) eqn:E.
    - destruct a as [a|a|a], b as [b|b|b], c as [c|c|c]; try discriminate E. destruct a' as [a'|a'|a'], b' as [b'|b'|b'], c' as [c'|c'|c']; cbn in Ha, Hb, Hc; try tauto. subst.
      destruct a', b', c'; apply (alike_ret inp V (fun r r' => Rbool r r' /\ (true = true -> isc r = true))); split; reflexivity.
    - eapply alike_weaken; [apply A_maj_some; assumption|]. intros r r' Hr. split; [exact Hr|discriminate].
  Qed.
End Bool.

(** *** Lists *)
Lemma F2_firstn {A B} (R : A -> B -> Prop) n : forall l l', Forall2 R l l' -> Forall2 R (firstn n l) (firstn n l').
Proof. induction n; intros l l' H; [constructor|]. destruct H; cbn [firstn]; constructor; auto. Qed.
Lemma F2_skipn {A B} (R : A -> B -> Prop) n : forall l l', Forall2 R l l' -> Forall2 R (skipn n l) (skipn n l').
Proof. induction n; intros l l' H; [exact H|]. destruct H; cbn [skipn]; [constructor|auto]. Qed.
Lemma F2_rev {A B} (R : A -> B -> Prop) l l' : Forall2 R l l' -> Forall2 R (rev l) (rev l').
Proof. induction 1; cbn [rev]; [constructor|]. apply Forall2_app; [assumption|]. constructor; [assumption|constructor]. Qed.
Lemma F2_map {A B A' B'} (R : A -> B -> Prop) (R' : A' -> B' -> Prop) f g l l' : (forall a b, R a b -> R' (f a) (g b)) -> Forall2 R l l' -> Forall2 R' (map f l) (map g l').
Proof. intro H. induction 1; cbn [map]; constructor; auto. Qed.
Lemma F2_flat_map {A B A' B'} (R : A -> B -> Prop) (R' : A' -> B' -> Prop) f g l l' : (forall a b, R a b -> Forall2 R' (f a) (g b)) -> Forall2 R l l' -> Forall2 R' (flat_map f l) (flat_map g l').
Proof. intro H. induction 1; cbn [flat_map]; [constructor|]. apply Forall2_app; auto. Qed.
Lemma F2_length {A B} (R : A -> B -> Prop) l l' : Forall2 R l l' -> length l = length l'.
Proof. induction 1; cbn; congruence. Qed.
Lemma F2_chunks {A B} (R : A -> B -> Prop) n l l' : Forall2 R l l' -> Forall2 (Forall2 R) (Sha256.chunks n l) (Sha256.chunks n l').
Proof.
  intro H. unfold Sha256.chunks. rewrite <- (F2_length _ _ _ H). induction (seq 0 _); cbn [map]; constructor; [|assumption]. apply F2_firstn, F2_skipn, H.
Qed.
Lemma Fa_firstn {A} (P : A -> Prop) n : forall l, Forall P l -> Forall P (firstn n l).
Proof. induction n; intros l H; [constructor|]. destruct H; cbn [firstn]; constructor; auto. Qed.
Lemma Fa_skipn {A} (P : A -> Prop) n : forall l, Forall P l -> Forall P (skipn n l).
Proof. induction n; intros l H; [exact H|]. destruct H; cbn [skipn]; [constructor|auto]. Qed.
Lemma Fa_rev {A} (P : A -> Prop) l : Forall P l -> Forall P (rev l).
Proof. rewrite !Forall_forall. intros H x Hx. apply H, in_rev, Hx. Qed.

(** *** Words *)
Inductive tag := TK | TN | TX.
(** all bits constant / none constant, or (for a failed comparison) any *)
Definition tg (k : bool) : tag := if k then TK else TN.
Definition consts (l : list Boolean) : Prop := Forall (fun b => isc b = true) l.
Definition noconsts (l : list Boolean) : Prop := Forall (fun b => isc b = false) l.

Section Words.
  Context {F : Field}.
  Variables (inp : Prop) (V : Var -> Prop) (one : Var).
  Hypothesis V1 : V one.
  Local Notation alike := (@alike F inp V _ _).
  Local Notation Rbit := (same_bit V).
  Local Notation Rbool := (Rbool V).

  Definition RW (u u' : UInt) : Prop := Forall2 Rbool (u_bits u) (u_bits u').
  Definition RU (t : tag) (u u' : UInt) : Prop := RW u u' /\ length (u_bits u) = 32 /\
    match t with TK => consts (u_bits u) /\ u_value u = u_value u' /\ u_value u <> None | TN => noconsts (u_bits u) | TX => True end.
  Lemma RU_any t u u' : RU t u u' -> RU TX u u'.
  Proof. intros (H1 & H2 & _). split; [exact H1|]. split; [exact H2|exact I]. Qed.
  Lemma R_same_const b : isc b = true -> Rbool b b.
  Proof. destruct b; cbn; congruence. Qed.
  Lemma R_consts l : consts l -> Forall2 Rbool l l.
  Proof. induction 1; constructor; [apply R_same_const; assumption|assumption]. Qed.
  Lemma consts_eq l l' : Forall2 Rbool l l' -> consts l -> l = l'.
  Proof.
    induction 1 as [|b b' l l' Hb H IH]; intro C; [reflexivity|]. inversion C; subst. f_equal; [|auto]. destruct b, b'; cbn in *; try discriminate; try tauto. congruence.
  Qed.
  Lemma const_bits l : consts (map Constant l).
  Proof. induction l; constructor; [reflexivity|assumption]. Qed.
  Lemma le_bits_length n v : length (le_bits n v) = n.
  Proof. unfold le_bits. rewrite map_length, seq_length. reflexivity. Qed.
  Lemma RW_constant n v : RW (u_constant n v) (u_constant n v).
  Proof. apply R_consts, const_bits. Qed.
  Lemma RU_constant v : RU TK (u_constant 32 v) (u_constant 32 v).
  Proof. split; [apply RW_constant|]. split; [cbn [u_constant u_bits]; rewrite map_length; apply le_bits_length|]. split; [apply const_bits|]. split; [reflexivity|discriminate]. Qed.
  Lemma R_rotr t u u' n : RU t u u' -> RU t (u32_rotr u n) (u32_rotr u' n).
  Proof.
    intros (H1 & H2 & H3). unfold u32_rotr. split; [|split].
    - apply F2_firstn, Forall2_app; [apply F2_skipn|]; exact H1.
    - cbn [u_bits]. rewrite firstn_length, app_length, skipn_length, H2. lia.
    - destruct t; cbn [u_bits u_value].
      + destruct H3 as (H3 & H4 & H5). split; [apply Fa_firstn, Forall_app; split; [apply Fa_skipn|]; exact H3|]. rewrite <- H4. split; [reflexivity|]. destruct (u_value u); [discriminate|congruence].
      + apply Fa_firstn, Forall_app. split; [apply Fa_skipn|]; exact H3.
      + exact I.
  Qed.
  Lemma R_shr t u u' n : RU t u u' -> RU (match t with TK => TK | _ => TX end) (u32_shr u n) (u32_shr u' n).
  Proof.
    intros (H1 & H2 & H3). unfold u32_shr. split; [|split].
    - apply F2_firstn, Forall2_app; [apply F2_skipn; exact H1|]. cbn [u_bits]. apply Forall2_repeat. reflexivity.
    - cbn [u_bits]. rewrite firstn_length, app_length, repeat_length, skipn_length, H2. lia.
    - destruct t; cbn [u_bits u_value]; try exact I. destruct H3 as (H3 & H4 & H5). split.
      + apply Fa_firstn, Forall_app. split; [apply Fa_skipn; exact H3|]. apply Forall_forall. intros x Hx. apply repeat_spec in Hx. subst x. reflexivity.
      + rewrite <- H4. split; [reflexivity|]. destruct (u_value u); [discriminate|congruence].
  Qed.

  Lemma A_xor_bits a a' : Forall2 Rbool a a' -> forall b b', Forall2 Rbool b b' ->
    alike (fun r r' => Forall2 Rbool r r' /\ (length a = length b -> length r = length a) /\ (consts a -> consts b -> consts r) /\
        (length a = length b -> noconsts a \/ noconsts b -> noconsts r))
      (mapM (fun '(a, b) => namespace "xor of bit i" (bool_xor a b)) (combine a b)) (mapM (fun '(a, b) => namespace "xor of bit i" (bool_xor a b)) (combine a' b')).
  Proof.
    induction 1 as [|x x' a a' Hx Ha IH]; intros b b' Hb.
    - cbn [combine mapM]. astep. split; [constructor|]. split; [reflexivity|]. split; [intros; constructor|]. intros; constructor.
    - destruct Hb as [|y y' b b' Hy Hb]; cbn [combine mapM].
      + astep. split; [constructor|]. split; [discriminate|]. split; [intros; constructor|]. intros; constructor.
      + eapply alike_nsb; [apply A_xor; eassumption|]. intros r r' [Hr Ec]. eapply alike_bind; [apply IH, Hb|]. intros rs rs' (H1 & H2 & H3 & H4). astep.
        split; [constructor; assumption|]. split; [cbn [length]; intro E; f_equal; apply H2; congruence|]. split.
        * intros Ca Cb. inversion Ca; inversion Cb; subst. constructor; [rewrite Ec; repeat match goal with H : isc _ = true |- _ => rewrite H; clear H end; reflexivity|]. apply H3; assumption.
        * cbn [length]. intros E [C|C]; inversion C; subst; (constructor; [rewrite Ec; match goal with H : isc _ = false |- _ => rewrite H end; auto using andb_false_r|apply H4; [congruence|tauto]]).
  Qed.
  Definition xor_tag (t s : tag) : tag := match t, s with TK, TK => TK | TN, _ | _, TN => TN | _, _ => TX end.
  Lemma A_u32_xor t s u u' v v' : RU t u u' -> RU s v v' -> alike (RU (xor_tag t s)) (u32_xor u v) (u32_xor u' v').
  Proof.
    intros (H1 & H2 & H3) (G1 & G2 & G3). unfold u32_xor. cbv zeta. eapply alike_bind; [apply A_xor_bits; eassumption|]. intros r r' (R1 & R2 & R3 & R4). astep.
    split; [exact R1|]. split; [cbn [u_bits]; rewrite R2; congruence|].
    assert (E : length (u_bits u) = length (u_bits v)) by congruence.
    destruct t, s; cbn [xor_tag u_bits u_value]; try exact I; try (apply R4; tauto).
    destruct H3 as (H3 & H4 & H5), G3 as (G3 & G4 & G5). split; [apply R3; assumption|]. rewrite <- H4, <- G4. split; [reflexivity|]. destruct (u_value u), (u_value v); try congruence. discriminate.
  Qed.
  Lemma A_tri_bits (f : Boolean -> Boolean -> Boolean -> CS F Boolean) :
    (forall a a' b b' c c', Rbool a a' -> Rbool b b' -> Rbool c c' -> alike (fun r r' => Rbool r r' /\ (isc a && isc b && isc c = true -> isc r = true)) (f a b c) (f a' b' c')) ->
    forall a a', Forall2 Rbool a a' -> forall b b', Forall2 Rbool b b' -> forall c c', Forall2 Rbool c c' ->
    alike (fun r r' => Forall2 Rbool r r' /\ (length a = length b -> length a = length c -> length r = length a) /\ (consts a -> consts b -> consts c -> consts r))
      (mapM (fun '(a, b, c) => f a b c) (combine (combine a b) c)) (mapM (fun '(a, b, c) => f a b c) (combine (combine a' b') c')).
  Proof.
    intro Hf. induction 1 as [|x x' a a' Hx Ha IH]; intros b b' Hb c c' Hc.
    - cbn [combine mapM]. astep. split; [constructor|]. split; [reflexivity|]. intros; constructor.
    - destruct Hb as [|y y' b b' Hy Hb]; [cbn [combine mapM]; astep; split; [constructor|]; split; [discriminate|]; intros; constructor|].
      destruct Hc as [|z z' c c' Hz Hc]; [cbn [combine mapM]; astep; split; [constructor|]; split; [discriminate|]; intros; constructor|].
      cbn [combine mapM]. eapply alike_bind; [apply Hf; eassumption|]. intros r r' [Hr Ec]. eapply alike_bind; [apply IH; [exact Hb|exact Hc]|].
      intros rs rs' (H1 & H2 & H3). astep. split; [constructor; assumption|]. split; [cbn [length]; intros E E'; f_equal; apply H2; congruence|].
      intros Ca Cb Cc. inversion Ca; inversion Cb; inversion Cc; subst. constructor; [apply Ec|apply H3; assumption].
      repeat match goal with H : isc _ = true |- _ => rewrite H; clear H end. reflexivity.
  Qed.
  Definition tri_tag (t s r : tag) : tag := match t, s, r with TK, TK, TK => TK | _, _, _ => TX end.
  Lemma A_triop g f t s r u u' v v' x x' :
    (forall a a' b b' c c', Rbool a a' -> Rbool b b' -> Rbool c c' -> alike (fun r r' => Rbool r r' /\ (isc a && isc b && isc c = true -> isc r = true)) (f a b c) (f a' b' c')) ->
    RU t u u' -> RU s v v' -> RU r x x' -> alike (RU (tri_tag t s r)) (u32_triop u v x g f) (u32_triop u' v' x' g f).
  Proof.
    intros Hf (H1 & H2 & H3) (G1 & G2 & G3) (I1 & I2 & I3). unfold u32_triop. cbv zeta. eapply alike_bind; [apply A_tri_bits; eassumption|]. intros rs rs' (R1 & R2 & R3). astep.
    split; [exact R1|]. split; [cbn [u_bits]; rewrite R2; congruence|]. destruct t, s, r; cbn [tri_tag u_bits u_value]; try exact I.
    destruct H3 as (H3 & H4 & H5), G3 as (G3 & G4 & G5), I3 as (I3 & I4 & I5). split; [apply R3; assumption|]. rewrite <- H4, <- G4, <- I4. split; [reflexivity|].
    destruct (u_value u), (u_value v), (u_value x); try congruence. discriminate.
  Qed.
  Lemma A_u32_ch t s r u u' v v' x x' : RU t u u' -> RU s v v' -> RU r x x' -> alike (RU (tri_tag t s r)) (u32_sha256_ch one u v x) (u32_sha256_ch one u' v' x').
  Proof. intros. unfold u32_sha256_ch. apply A_triop; try assumption. intros. apply alike_ns. apply A_ch; assumption. Qed.
  Lemma A_u32_maj t s r u u' v v' x x' : RU t u u' -> RU s v v' -> RU r x x' -> alike (RU (tri_tag t s r)) (u32_sha256_maj one u v x) (u32_sha256_maj one u' v' x').
  Proof. intros. unfold u32_sha256_maj. apply A_triop; try assumption. intros. apply alike_ns. apply A_maj; assumption. Qed.

  (** *** addmany *)
  Definition all_const (l : list UInt) : bool := forallb (fun op => forallb isc (u_bits op)) l.
  Definition summands (k : bool) (l l' : list UInt) : Prop :=
    if k then Forall2 (RU TK) l l' else Forall2 (RU TX) l l' /\ all_const l = false.
  Lemma RLC_add_bits bs bs' : Forall2 Rbool bs bs' -> forall l l' (c : Coeff F), RLC V l l' -> RLC V (add_bits_lc one l c bs) (add_bits_lc one l' c bs').
  Proof. induction 1 as [|b b' bs bs' Hb H IH]; intros l l' c Hl; cbn [add_bits_lc]; [exact Hl|]. apply IH. apply RLC_add_lc; [exact Hl|]. apply RLC_bool; assumption. Qed.
  Lemma RLC_words ops ops' : Forall2 RW ops ops' -> forall l l' : LC F, RLC V l l' ->
    RLC V (fold_left (fun lc op => add_bits_lc one lc COne (u_bits op)) ops l) (fold_left (fun lc op => add_bits_lc one lc COne (u_bits op)) ops' l').
  Proof. induction 1 as [|o o' ops ops' Ho H IH]; intros l l' Hl; cbn [fold_left]; [exact Hl|]. apply IH. apply RLC_add_bits; assumption. Qed.
  Lemma all_const_same ops ops' : Forall2 RW ops ops' -> all_const ops = all_const ops'.
  Proof.
    induction 1 as [|o o' ops ops' Ho H IH]; [reflexivity|]. unfold all_const in *. cbn [forallb]. rewrite IH. f_equal. clear - Ho. unfold RW in Ho.
    induction Ho as [|b b' l l' Hb H IH]; [reflexivity|]. cbn [forallb]. rewrite IH. f_equal. exact (R_isc V _ _ Hb).
  Qed.
  Lemma summands_RW k l l' : summands k l l' -> Forall2 RW l l'.
  Proof. unfold summands. intro H. assert (X : exists t, Forall2 (RU t) l l') by (destruct k; [exists TK; exact H|exists TX; apply H]). destruct X as [t X]. clear H. induction X; constructor; [apply H|assumption]. Qed.
  Lemma sums_same l l' : Forall2 (RU TK) l l' -> forall a a', a = a' -> a <> None ->
    fold_left (fun acc op => omap2 Z.add acc (u_value op)) l a = fold_left (fun acc op => omap2 Z.add acc (u_value op)) l' a' /\
    fold_left (fun acc op => omap2 Z.add acc (u_value op)) l a <> None.
  Proof.
    induction 1 as [|u u' l l' (H1 & H2 & H3 & H4 & H5) H IH]; intros a a' E N; cbn [fold_left]; [split; assumption|].
    subst a'. apply IH; [rewrite H4; reflexivity|]. destruct a, (u_value u); try congruence. discriminate.
  Qed.
  Lemma consts_all l l' : Forall2 (RU TK) l l' -> all_const l = true.
  Proof. induction 1 as [|u u' l l' (H1 & H2 & H3 & _) H IH]; [reflexivity|]. unfold all_const in *. cbn [forallb]. rewrite IH, andb_true_r. apply forallb_forall. rewrite <- Forall_forall. exact H3. Qed.
  (** the number of result bits depends on the number of summands only *)
  Lemma A_result_bits fuel : forall n m v v' i i' c (l l' : LC F) bs bs', n <= fuel -> (2 ^ Z.of_nat n <= 2 * m + 1)%Z -> RLC V l l' -> Forall2 Rbool bs bs' -> noconsts bs ->
    alike (fun r r' => RLC V (fst r) (fst r') /\ Forall2 Rbool (snd r) (snd r') /\ noconsts (snd r) /\ length bs + n <= length (snd r)) (result_loop fuel m v i c l bs) (result_loop fuel m v' i' c l' bs').
  Proof.
    induction fuel as [|fuel IH]; intros n m v v' i i' c l l' bs bs' Hf Hm Hl Hb Hn.
    - cbn [result_loop]. astep. cbn [fst snd]. assert (n = 0) by lia. subst n. repeat (split; [assumption|]). lia.
    - cbn [result_loop]. destruct (m =? 0)%Z eqn:E.
      + astep. cbn [fst snd]. apply Z.eqb_eq in E. subst m. assert (n = 0). { destruct n; [reflexivity|]. rewrite Nat2Z.inj_succ, Z.pow_succ_r in Hm by lia. pose proof (Z.pow_pos_nonneg 2 (Z.of_nat n)). lia. }
        subst n. repeat (split; [assumption|]). lia.
      + apply Z.eqb_neq in E. astep. eapply alike_weaken; [apply (IH (pred n))|].
        * lia.
        * rewrite Z.shiftr_div_pow2 by lia. change (2 ^ 1)%Z with 2%Z. destruct n as [|n].
          -- cbn [pred]. change (2 ^ Z.of_nat 0)%Z with 1%Z in *. pose proof (Z.div_mod m 2). pose proof (Z.mod_pos_bound m 2). lia.
          -- cbn [pred]. rewrite Nat2Z.inj_succ, Z.pow_succ_r in Hm by lia. pose proof (Z.div_mod m 2). pose proof (Z.mod_pos_bound m 2). lia.
        * apply RLC_add_cv; auto.
        * apply Forall2_app; [exact Hb|]. constructor; [rel|constructor].
        * apply Forall_app. split; [exact Hn|]. constructor; [reflexivity|constructor].
        * cbv beta. intros [? ?] [? ?]. cbn [fst snd]. rewrite app_length. cbn [length]. intros (G1 & G2 & G3 & G4). repeat (split; [assumption|]). lia.
  Qed.
  Lemma A_addmany k ops ops' : summands k ops ops' -> alike (RU (tg k)) (u32_addmany one ops) (u32_addmany one ops').
  Proof.
    intro H. pose proof (summands_RW _ _ _ H) as HW. unfold u32_addmany. rewrite <- (F2_length _ _ _ HW). astep; [tauto|]. astep; [tauto|]. cbv zeta.
    fold (all_const ops). fold (all_const ops'). rewrite <- (all_const_same _ _ HW). destruct k; cbn [tg].
    - rewrite (consts_all _ _ H). destruct (sums_same _ _ H (Some 0%Z) (Some 0%Z) eq_refl ltac:(discriminate)) as [E N]. rewrite <- E.
      destruct (fold_left _ ops (Some 0%Z)) as [v|]; [|congruence]. cbn [option_map]. astep. apply RU_constant.
    - destruct H as [_ H]. rewrite H.
      match goal with Hl : (2 <=? length ops) = true |- _ => apply Nat.leb_le in Hl; rename Hl into L2 end.
      eapply alike_bind; [apply (A_result_bits 64 32); [lia| |apply RLC_zero|constructor|constructor]|].
      + change (2 ^ Z.of_nat 32)%Z with 4294967296%Z. change (2 ^ 32 - 1)%Z with 4294967295%Z. lia.
      + intros [rl rb] [rl' rb'] (G1 & G2 & G3 & G4). cbn [fst snd length Nat.add] in *. apply alike_lcb.
        * apply RLC_sub_lc; [apply RLC_words; [exact HW|apply RLC_zero]|exact G1].
        * astep. split; [apply F2_firstn; exact G2|]. split; [cbn [u_bits]; rewrite firstn_length; lia|]. cbn [u_bits]. apply Fa_firstn, G3.
  Qed.
End Words.

(** *** Lists of bits that consist of such words *)
Inductive pure32 : list Boolean -> Prop :=
| pure_nil : pure32 []
| pure_cons c l : length c = 32 -> consts c \/ noconsts c -> pure32 l -> pure32 (c ++ l).
Lemma pure_app l m : pure32 l -> pure32 m -> pure32 (l ++ m).
Proof. induction 1; intro H2; [exact H2|]. rewrite <- app_assoc. constructor; auto. Qed.
Lemma pure_skip l : pure32 l -> pure32 (skipn 32 l).
Proof. destruct 1 as [|c l H]; [constructor|]. rewrite skipn_app, H, <- H, skipn_all, Nat.sub_diag. assumption. Qed.
Lemma pure_first l : pure32 l -> l <> [] -> length (firstn 32 l) = 32 /\ (consts (firstn 32 l) \/ noconsts (firstn 32 l)).
Proof. destruct 1 as [|c l H H1]; [congruence|]. intros _. rewrite firstn_app, H, <- H, firstn_all, Nat.sub_diag. cbn [firstn]. rewrite app_nil_r. auto. Qed.
Lemma skip_mul {A} n : forall (l : list A), skipn (32 * S n) l = skipn 32 (skipn (32 * n) l).
Proof.
  intro l. replace (32 * S n) with (32 * n + 32) by lia. generalize (32 * n) as a. intro a. revert l.
  induction a as [|a IH]; intros [|x l]; cbn [Nat.add]; try reflexivity. rewrite !skipn_cons. apply IH.
Qed.
Lemma pure_skipn n : forall l, pure32 l -> pure32 (skipn (32 * n) l).
Proof. induction n as [|n IH]; intros l H; [exact H|]. rewrite skip_mul. apply pure_skip, IH, H. Qed.
Lemma pure_firstn n : forall l, pure32 l -> pure32 (firstn (32 * n) l).
Proof.
  induction n as [|n IH]; intros l H; [constructor|]. destruct H as [|c l H H1 H2]; [rewrite firstn_nil; constructor|].
  rewrite firstn_app, H. replace (32 * S n - 32) with (32 * n) by lia. rewrite firstn_all2 by lia. constructor; auto.
Qed.
Lemma pure_same (P : Boolean -> Prop) l n : (forall l, Forall P l -> consts l \/ noconsts l) -> Forall P l -> length l = 32 * n -> pure32 l.
Proof.
  intro HP. revert l. induction n as [|n IH]; intros l H HL; [destruct l; [constructor|cbn in HL; lia]|].
  rewrite <- (firstn_skipn 32 l). constructor; [rewrite firstn_length; lia|apply HP, Fa_firstn, H|]. apply IH; [apply Fa_skipn, H|rewrite skipn_length; lia].
Qed.
Lemma pure_length l : pure32 l -> exists n, length l = 32 * n.
Proof. induction 1 as [|c l H H1 H2 [n IH]]; [exists 0; reflexivity|]. exists (S n). rewrite app_length. lia. Qed.

Section Sha.
  Context {F : Field}.
  Variables (inp : Prop) (V : Var -> Prop) (one : Var).
  Hypothesis V1 : V one.
  Local Notation alike := (@alike F inp V _ _).
  Local Notation Rbool := (Rbool V).
  Local Notation RU := (RU V).
  Local Notation summands := (summands V).

  Definition pureU (u u' : UInt) : Prop := exists k, RU (tg k) u u'.
  Lemma be_value_const l : consts l -> forall a, a <> None ->
    fold_left (fun value b => match value, bool_value b with Some v, Some b => Some (2 * v + Z.b2z b)%Z | _, _ => None end) l a <> None.
  Proof.
    induction 1 as [|b l Hb H IH]; intros a Ha; cbn [fold_left]; [exact Ha|]. apply IH. destruct a; [|congruence]. destruct b; try discriminate Hb. discriminate.
  Qed.
  Lemma RU_from_be l l' : Forall2 Rbool l l' -> length l = 32 -> consts l \/ noconsts l -> alike pureU (u32_from_bits_be l) (u32_from_bits_be l').
  Proof.
    intros H HL HP. unfold u32_from_bits_be. rewrite <- (F2_length _ _ _ H). astep; [tauto|]. astep. destruct HP as [HP|HP].
    - pose proof (consts_eq V _ _ H HP) as <-. exists true. split; [apply F2_rev, H|]. split; [cbn [u_bits]; rewrite rev_length; exact HL|]. cbn [tg u_bits u_value].
      split; [apply Fa_rev, HP|]. split; [reflexivity|]. unfold bits_be_value. apply be_value_const; [exact HP|discriminate].
    - exists false. split; [apply F2_rev, H|]. split; [cbn [u_bits]; rewrite rev_length; exact HL|]. apply Fa_rev, HP.
  Qed.
  Lemma A_words l l' : Forall2 Rbool l l' -> pure32 l -> length l = 512 -> alike (Forall2 pureU) (mapM u32_from_bits_be (Sha256.chunks 32 l)) (mapM u32_from_bits_be (Sha256.chunks 32 l')).
  Proof.
    intros H HP HL. eapply (alike_mapM inp V (fun c c' => Forall2 Rbool c c' /\ length c = 32 /\ (consts c \/ noconsts c))).
    - intros c c' (H1 & H2 & H3). apply RU_from_be; assumption.
    - unfold Sha256.chunks. rewrite <- (F2_length _ _ _ H), HL. change ((512 + (32 - 1)) / 32) with 16.
      assert (G : Forall (fun i => i < 16) (seq 0 16)) by (apply Forall_forall; intros i Hi; apply in_seq in Hi; lia). revert G. generalize (seq 0 16) as is. 
      induction is as [|i is IH]; intro G; inversion G; subst; cbn [map]; constructor; [|apply IH; assumption].
      split; [apply F2_firstn, F2_skipn, H|]. apply pure_first; [apply pure_skipn, HP|]. intro E. apply (f_equal (@length _)) in E. rewrite skipn_length in E. cbn [length] in E. lia.
  Qed.
  Lemma index_alike {A B A' B'} (S : A -> B -> Prop) (R : A' -> B' -> Prop) l l' i f g : Forall2 S l l' ->
    (forall a b, S a b -> alike R (f a) (g b)) -> alike R (bind (index l i) f) (bind (index l' i) g).
  Proof. intros H H1. unfold index. eapply alike_unwrapb; [intros a Ea; exact (Forall2_nth _ _ _ _ _ H Ea)|exact H1]. Qed.

  Lemma index_at {A B A' B'} (R : A' -> B' -> Prop) (l : list A) (l' : list B) i a b f g : nth_error l i = Some a -> nth_error l' i = Some b ->
    alike R (f a) (g b) -> alike R (bind (index l i) f) (bind (index l' i) g).
  Proof. unfold index. intros -> -> H. exact H. Qed.

  (** sums *)
  Fixpoint tags_of (ts : list tag) (l l' : list UInt) : Prop :=
    match ts, l, l' with
    | [], [], [] => True
    | t :: ts, u :: l, u' :: l' => RU t u u' /\ tags_of ts l l'
    | _, _, _ => False
    end.
  Definition isK (t : tag) : bool := match t with TK => true | _ => false end.
  Definition isN (t : tag) : bool := match t with TN => true | _ => false end.
  Lemma noconsts_some u u' : RU TN u u' -> forallb isc (u_bits u) = false.
  Proof. intros (_ & H1 & H2). destruct (u_bits u) as [|b l]; [discriminate H1|]. inversion H2; subst. cbn [forallb]. match goal with H : isc b = false |- _ => rewrite H end. reflexivity. Qed.
  Lemma tags_sum ts : forall l l', tags_of ts l l' -> forallb isK ts || existsb isN ts = true -> summands (forallb isK ts) l l'.
  Proof.
    assert (X : forall l l', tags_of ts l l' -> Forall2 (RU TX) l l' /\ (existsb isN ts = true -> all_const l = false) /\ (forallb isK ts = true -> Forall2 (RU TK) l l')).
    { induction ts as [|t ts IH]; intros [|u l] [|u' l'] H; cbn [tags_of] in H; try tauto.
      - split; [constructor|]. split; [discriminate|constructor].
      - destruct H as [H H1]. destruct (IH _ _ H1) as (X1 & X2 & X3). split; [constructor; [apply (RU_any _ _ _ _ H)|exact X1]|]. split.
        + cbn [existsb]. intro E. apply orb_true_iff in E. unfold all_const. cbn [forallb]. destruct E as [E|E].
          * destruct t; try discriminate E. rewrite (noconsts_some _ _ H). reflexivity.
          * unfold all_const in X2. rewrite (X2 E). apply andb_false_r.
        + cbn [forallb]. intro E. apply andb_true_iff in E. destruct E as [E1 E2]. constructor; [destruct t; try discriminate E1; exact H|auto]. }
    intros l l' H E. destruct (X l l' H) as (X1 & X2 & X3). unfold summands. destruct (forallb isK ts); [auto|]. split; [exact X1|]. apply X2. exact E.
  Qed.
  Lemma summands_app k k' l l' u u' : summands k l l' -> RU (tg k') u u' -> summands (k && k') (l ++ [u]) (l' ++ [u']).
  Proof.
    unfold summands. destruct k; cbn [andb].
    - intros H Hu. destruct k'; cbn [tg] in Hu.
      + apply Forall2_app; [exact H|]. constructor; [exact Hu|constructor].
      + split.
        * apply Forall2_app; [|constructor; [exact (RU_any _ _ _ _ Hu)|constructor]]. clear - H. induction H; constructor; [eapply RU_any; eassumption|assumption].
        * unfold all_const. rewrite forallb_app. cbn [forallb]. rewrite (noconsts_some _ _ Hu). rewrite andb_false_r. reflexivity.
    - intros [H H1] Hu. split; [apply Forall2_app; [exact H|]; constructor; [exact (RU_any _ _ _ _ Hu)|constructor]|]. unfold all_const in *. rewrite forallb_app, H1. reflexivity.
  Qed.

  Lemma A_extension w w' i : Forall2 pureU w w' -> alike (Forall2 pureU) (w_extension one w i) (w_extension one w' i).
  Proof.
    intro H. unfold w_extension. astep.
    apply (index_alike pureU); [exact H|]. intros w15 w15' [k15 H15].
    eapply alike_nsb; [apply A_u32_xor; apply R_rotr, H15|]. intros s0 s0' Hs0. eapply alike_nsb; [apply A_u32_xor; [exact Hs0|apply R_shr, H15]|]. clear s0 s0' Hs0. intros s0 s0' Hs0.
    apply (index_alike pureU); [exact H|]. intros w2 w2' [k2 H2].
    eapply alike_nsb; [apply A_u32_xor; apply R_rotr, H2|]. intros s1 s1' Hs1. eapply alike_nsb; [apply A_u32_xor; [exact Hs1|apply R_shr, H2]|]. clear s1 s1' Hs1. intros s1 s1' Hs1.
    apply (index_alike pureU); [exact H|]. intros w16 w16' [k16 H16].
    apply (index_alike pureU); [exact H|]. intros w7 w7' [k7 H7].
    eapply alike_nsb; [apply A_addmany; [exact V1|]; apply (tags_sum [tg k16; tg k15; tg k7; tg k2])|].
    - cbn [tags_of]. split; [exact H16|]. split; [destruct k15; exact Hs0|]. split; [exact H7|]. split; [destruct k2; exact Hs1|exact I].
    - destruct k16, k15, k7, k2; reflexivity.
    - intros t t' Ht. astep. apply Forall2_app; [exact H|]. constructor; [eexists; exact Ht|constructor].
  Qed.

  Definition RM (k : bool) (m m' : Maybe) : Prop :=
    match m, m' with
    | Concrete u, Concrete u' => RU (tg k) u u'
    | Deferred l, Deferred l' => summands k l l'
    | _, _ => False
    end.
  Lemma A_compute s k m m' : RM k m m' -> alike (RU (tg k)) (compute one s m []) (compute one s m' []).
  Proof.
    intro H. unfold compute. astep. destruct m, m'; cbn [RM] in H; try tauto.
    - rewrite !app_nil_r. apply A_addmany; assumption.
    - astep. exact H.
  Qed.
  Definition deferred (m : Maybe) : Prop := match m with Deferred _ => True | Concrete _ => False end.
  Lemma A_compute1 s k k' m m' h h' : RM k m m' -> deferred m -> RU (tg k') h h' -> alike (RU (tg (k && k'))) (compute one s m [h]) (compute one s m' [h']).
  Proof.
    intros H Hd Hh. unfold compute. astep. destruct m, m'; cbn [RM deferred] in H, Hd; try tauto.
    apply A_addmany; [exact V1|apply summands_app; eassumption].
  Qed.
  Definition RS (s s' : Sha256.State) : Prop := exists ka kb kc kd ke kf kg kh,
    RM ka (s_a s) (s_a s') /\ RU (tg kb) (s_b s) (s_b s') /\ RU (tg kc) (s_c s) (s_c s') /\ RU (tg kd) (s_d s) (s_d s') /\
    RM ke (s_e s) (s_e s') /\ RU (tg kf) (s_f s) (s_f s') /\ RU (tg kg) (s_g s) (s_g s') /\ RU (tg kh) (s_h s) (s_h s') /\
    (ka = true -> kb = true /\ kc = true) /\ (ke = true -> kf = true /\ kg = true).
  Lemma A_round w w' s s' i : Forall2 pureU w w' -> RS s s' -> alike (fun s s' => RS s s' /\ deferred (s_a s) /\ deferred (s_e s)) (compression_round one w s i) (compression_round one w' s' i).
  Proof.
    intros Hw (ka & kb & kc & kd & ke & kf & kg & kh & Ha & Hb & Hc & Hd & He & Hf & Hg & Hh & Ia & Ie).
    unfold compression_round. astep.
    eapply alike_bind; [apply A_compute, He|]. intros e e' He'.
    eapply alike_nsb; [apply A_u32_xor; apply R_rotr, He'|]. intros s1 s1' Hs1. eapply alike_nsb; [apply A_u32_xor; [exact Hs1|apply R_rotr, He']|]. clear s1 s1' Hs1. intros s1 s1' Hs1.
    eapply alike_nsb; [apply A_u32_ch; [exact V1|exact He'|exact Hf|exact Hg]|]. intros ch ch' Hch.
    apply (index_alike eq); [apply Forall2_same; reflexivity|]. intros k ? <-.
    apply (index_alike pureU); [exact Hw|]. intros wi wi' [kw Hwi]. cbv zeta.
    eapply alike_bind; [apply A_compute, Ha|]. intros a a' Ha'.
    eapply alike_nsb; [apply A_u32_xor; apply R_rotr, Ha'|]. intros s0 s0' Hs0. eapply alike_nsb; [apply A_u32_xor; [exact Hs0|apply R_rotr, Ha']|]. clear s0 s0' Hs0. intros s0 s0' Hs0.
    eapply alike_nsb; [apply A_u32_maj; [exact V1|exact Ha'|exact Hb|exact Hc]|]. intros maj maj' Hmaj. astep.
    assert (Hs1' : RU (tg ke) s1 s1') by (destruct ke; exact Hs1). assert (Hs0' : RU (tg ka) s0 s0') by (destruct ka; exact Hs0).
    set (tch := tri_tag (tg ke) (tg kf) (tg kg)) in *. set (tmaj := tri_tag (tg ka) (tg kb) (tg kc)) in *.
    split; [|split; exact I].
    exists (forallb isK [tg kh; tg ke; tch; TK; tg kw; tg ka; tmaj]), ka, kb, kc, (forallb isK [tg kh; tg ke; tch; TK; tg kw; tg kd]), ke, kf, kg.
    cbn [s_a s_b s_c s_d s_e s_f s_g s_h RM]. split; [|split; [exact Ha'|split; [exact Hb|split; [exact Hc|split; [|split; [exact He'|split; [exact Hf|split; [exact Hg|split]]]]]]]].
    - apply tags_sum.
      + cbn [app tags_of]. repeat (split; [first [assumption|apply RU_constant]|]). exact I.
      + unfold tch, tmaj. destruct ke; [destruct (Ie eq_refl) as [-> ->]|]; destruct ka; try (destruct (Ia eq_refl) as [-> ->]); destruct kh, kw; try reflexivity; cbn; rewrite ?orb_true_r; reflexivity.
    - apply tags_sum.
      + cbn [app tags_of]. repeat (split; [first [assumption|apply RU_constant]|]). exact I.
      + unfold tch. destruct ke; [destruct (Ie eq_refl) as [-> ->]|]; destruct kh, kw, kd; try reflexivity; cbn; rewrite ?orb_true_r; reflexivity.
    - cbn [forallb]. intro E. repeat (apply andb_true_iff in E; destruct E as [? E]). destruct ka; [|discriminate]. split; [reflexivity|apply Ia; reflexivity].
    - cbn [forallb]. intro E. repeat (apply andb_true_iff in E; destruct E as [? E]). destruct ke; [|discriminate]. split; [reflexivity|apply Ie; reflexivity].
  Qed.
  Definition RC (l l' : list UInt) : Prop := exists k0 k1 k2 k3 k4 k5 k6 k7,
    tags_of [tg k0; tg k1; tg k2; tg k3; tg k4; tg k5; tg k6; tg k7] l l' /\ (k0 = true -> k1 = true /\ k2 = true) /\ (k4 = true -> k5 = true /\ k6 = true).
  Lemma A_two k k' u u' v v' : RU (tg k) u u' -> RU (tg k') v v' -> alike (RU (tg (k && k'))) (u32_addmany one [u; v]) (u32_addmany one [u'; v']).
  Proof.
    intros H H1. eapply alike_weaken; [apply A_addmany; [exact V1|]; apply (tags_sum [tg k; tg k'])|].
    - cbn [tags_of]. tauto.
    - destruct k, k'; reflexivity.
    - intros a b. destruct k, k'; exact (fun x => x).
  Qed.
  Ltac peel HC cur cur' c d C := destruct cur as [|c cur]; [destruct cur'; destruct HC|]; destruct cur' as [|d cur']; [destruct HC|]; destruct HC as [C HC].
  Lemma A_compression input input' cur cur' : Forall2 Rbool input input' -> pure32 input -> RC cur cur' ->
    alike RC (sha256_compression_function one input cur) (sha256_compression_function one input' cur').
  Proof.
    intros H HP (k0 & k1 & k2 & k3 & k4 & k5 & k6 & k7 & HC & I0 & I4). unfold sha256_compression_function.
    rewrite <- (F2_length _ _ _ H).
    peel HC cur cur' c0 d0 C0. peel HC cur cur' c1 d1 C1. peel HC cur cur' c2 d2 C2. peel HC cur cur' c3 d3 C3.
    peel HC cur cur' c4 d4 C4. peel HC cur cur' c5 d5 C5. peel HC cur cur' c6 d6 C6. peel HC cur cur' c7 d7 C7.
    destruct cur; [|destruct HC]. destruct cur'; [|destruct HC].
    eapply alike_assertb; [tauto|]. intro HL. apply Nat.eqb_eq in HL. eapply alike_assertb; [tauto|]. intros _.
    eapply alike_bind; [apply A_words; assumption|]. intros w0 w0' Hw0.
    eapply alike_bind; [apply (alike_fold1 inp V (Forall2 pureU)); [|exact Hw0]|].
    { intros a b i _ Hab. apply A_extension, Hab. }
    clear w0 w0' Hw0. intros w w' Hw. rewrite <- (F2_length _ _ _ Hw). eapply alike_assertb; [tauto|]. intros _.
    do 8 (eapply index_at; [reflexivity|reflexivity|]).
    eapply alike_bind; [change (seq 0 64) with (0 :: seq 1 63); cbn [foldM]; eapply alike_bind; [apply A_round; [exact Hw|]|]|].
    { exists k0, k1, k2, k3, k4, k5, k6, k7. cbn [s_a s_b s_c s_d s_e s_f s_g s_h RM]. tauto. }
    { intros s s' Hs. apply (alike_fold1 inp V (fun s s' => RS s s' /\ deferred (s_a s) /\ deferred (s_e s))); [|exact Hs].
      intros a b i _ (Hab & _). apply A_round; assumption. }
    intros s s' ((ka & kb & kc & kd & ke & kf & kg & kh & Ha & Hb & Hc & Hd & He & Hf & Hg & Hh & Ia & Ie) & Da & De).
    eapply alike_bind; [eapply A_compute1; eassumption|]. intros n0 n0' N0.
    do 3 (eapply alike_nsb; [apply A_two; eassumption|]; let n := fresh "n" in let n' := fresh "n'" in let N := fresh "N" in intros n n' N).
    eapply alike_bind; [eapply A_compute1; eassumption|]. intros n4 n4' N4.
    do 3 (eapply alike_nsb; [apply A_two; eassumption|]; let n := fresh "n" in let n' := fresh "n'" in let N := fresh "N" in intros n n' N).
    astep. exists (ka && k0), (k1 && kb), (k2 && kc), (k3 && kd), (ke && k4), (k5 && kf), (k6 && kg), (k7 && kh). cbn [tags_of].
    split; [tauto|]. clear - Ia Ie I0 I4. split; intro E; apply andb_true_iff in E; destruct E as [E1 E2].
    - destruct (Ia E1) as [-> ->]. destruct (I0 E2) as [-> ->]. split; reflexivity.
    - destruct (Ie E1) as [-> ->]. destruct (I4 E2) as [-> ->]. split; reflexivity.
  Qed.
  Lemma tags_rel (P : UInt -> UInt -> Prop) ts : (forall t u u', In t ts -> RU t u u' -> P u u') -> forall l l', tags_of ts l l' -> Forall2 P l l'.
  Proof.
    induction ts as [|t ts IH]; intros HP [|u l] [|u' l'] H; cbn [tags_of] in H; try tauto; constructor.
    - apply (HP t); [left; reflexivity|apply H].
    - apply IH; [|apply H]. intros t' v v' Ht. apply HP. right. exact Ht.
  Qed.
  Lemma RC_pure l l' : RC l l' -> Forall2 pureU l l'.
  Proof.
    intros (k0 & k1 & k2 & k3 & k4 & k5 & k6 & k7 & H & _). eapply tags_rel; [|exact H]. intros t u u' Ht Hu.
    cbn [In] in Ht. repeat destruct Ht as [Ht|Ht]; try destruct Ht; subst; eexists; exact Hu.
  Qed.
  Lemma RC_length l l' : RC l l' -> length l = 8.
  Proof. intros (k0 & k1 & k2 & k3 & k4 & k5 & k6 & k7 & H & _). repeat (destruct l as [|? l]; [now destruct l'|]; destruct l' as [|? l']; [now destruct H|]; destruct H as [_ H]). destruct l; [reflexivity|destruct H]. Qed.
  Lemma RC_iv : RC get_sha256_iv get_sha256_iv.
  Proof.
    unfold get_sha256_iv, IV. cbn [map]. exists true, true, true, true, true, true, true, true. cbn [tags_of tg]. split; [|split; split; reflexivity].
    repeat (split; [apply RU_constant|]). exact I.
  Qed.
  Definition RO (l l' : list Boolean) : Prop := Forall2 Rbool l l' /\ length l = 256 /\ pure32 l.
  Lemma RC_out l l' : RC l l' -> RO (flat_map u_into_bits_be l) (flat_map u_into_bits_be l').
  Proof.
    intro H. pose proof (RC_length _ _ H) as HL. apply RC_pure in H. split; [|split].
    - apply (F2_flat_map pureU); [|exact H]. intros u u' [k (Hu & _)]. apply F2_rev, Hu.
    - replace 256 with (32 * length l) by (rewrite HL; reflexivity). clear HL. induction H as [|u u' l l' [k (_ & Hu & _)] H IH]; [reflexivity|]. cbn [flat_map length]. rewrite app_length, IH. unfold u_into_bits_be. rewrite rev_length, Hu. lia.
    - clear HL. induction H as [|u u' l l' [k (_ & Hu & Hk)] H IH]; [constructor|]. cbn [flat_map]. constructor; [unfold u_into_bits_be; rewrite rev_length; exact Hu| |exact IH].
      unfold u_into_bits_be. destruct k; [left; apply Fa_rev, Hk|right; apply Fa_rev, Hk].
  Qed.
  Lemma pad_zeros_spec n : forall a, exists k, pad_zeros n a = a ++ repeat (Constant false) k /\ forall b, length b = length a -> pad_zeros n b = b ++ repeat (Constant false) k.
  Proof.
    induction n as [|n IH]; intro a; cbn [pad_zeros]; [exists 0; split; [symmetry; apply app_nil_r|intros; symmetry; apply app_nil_r]|].
    destruct (((length a + 64) mod 512 =? 0)%nat) eqn:E.
    - exists 0. split; [symmetry; apply app_nil_r|]. intros b Hb. rewrite Hb, E. symmetry. apply app_nil_r.
    - destruct (IH (a ++ [Constant false])) as (k & H1 & H2). exists (S k). split; [rewrite H1, <- app_assoc; reflexivity|].
      intros b Hb. rewrite Hb, E, H2 by (rewrite !app_length, Hb; reflexivity). rewrite <- app_assoc. reflexivity.
  Qed.
  Lemma blocks_rel a b : Forall2 Rbool a b -> pure32 a -> Forall2 (fun a b => Forall2 Rbool a b /\ pure32 a) (Sha256.chunks 512 a) (Sha256.chunks 512 b).
  Proof.
    intros H HP. unfold Sha256.chunks. rewrite <- (F2_length _ _ _ H). generalize (seq 0 ((length a + (512 - 1)) / 512)) as is.
    induction is as [|i is IH]; cbn [map]; constructor; [|exact IH]. split; [apply F2_firstn, F2_skipn, H|].
    apply (pure_firstn 16). match goal with |- pure32 (skipn ?n _) => replace n with (32 * (16 * i)) by lia end. apply pure_skipn, HP.
  Qed.
  Lemma A_sha256 l l' : Forall2 Rbool l l' -> pure32 l -> alike RO (sha256 one l) (sha256 one l').
  Proof.
    intros H HP. unfold sha256. rewrite <- (F2_length _ _ _ H). eapply alike_assertb; [tauto|]. intros _. cbv zeta.
    assert (X : exists cs, consts cs /\ sha256_pad l = l ++ cs /\ sha256_pad l' = l' ++ cs).
    { unfold sha256_pad. destruct (pad_zeros_spec 512 (l ++ [Constant true])) as (k & H1 & H2).
      exists (([Constant true] ++ repeat (Constant false) k) ++ map (fun i => Constant (Z.testbit (Z.of_nat (length l)) (Z.of_nat i))) (rev (seq 0 64))).
      split; [|split].
      - apply Forall_app. split; [constructor; [reflexivity|]|].
        + apply Forall_forall. intros x Hx. apply repeat_spec in Hx. subst x. reflexivity.
        + apply Forall_forall. intros x Hx. apply in_map_iff in Hx. destruct Hx as (i & <- & _). reflexivity.
      - cbv zeta. rewrite H1, <- !app_assoc. reflexivity.
      - cbv zeta. rewrite H2 by (rewrite !app_length, (F2_length _ _ _ H); reflexivity). rewrite (F2_length _ _ _ H), <- !app_assoc. reflexivity. }
    destruct X as (cs & HC & -> & ->).
    assert (HR : Forall2 Rbool (l ++ cs) (l' ++ cs)).
    { apply Forall2_app; [exact H|]. clear - HC. induction HC as [|c cs Hc _ IH]; constructor; [|exact IH]. destruct c; try discriminate Hc. constructor. }
    rewrite <- (F2_length _ _ _ HR). eapply alike_assertb; [tauto|]. intro HL. apply Nat.eqb_eq in HL.
    assert (HP' : pure32 (l ++ cs)).
    { apply pure_app; [exact HP|]. destruct (pure_length _ HP) as [n Hn]. rewrite app_length, Hn in HL.
      apply Nat.mod_divides in HL; [|lia]. destruct HL as [m HL].
      apply (pure_same (fun b => isc b = true) cs (16 * m - n)); [intros q Hq; left; exact Hq|exact HC|lia]. }
    eapply alike_bind; [|intros a b Hab; astep; apply RC_out, Hab].
    eapply (alike_foldM inp V (fun a b => Forall2 Rbool a b /\ pure32 a) RC); [|apply (blocks_rel _ _ HR HP')|apply RC_iv].
    intros a a' x y Ha [H1 H2]. apply alike_ns. apply A_compression; assumption.
  Qed.
End Sha.

(** How many wires and constraints the gadgets add: calls and num.rs, boolean.rs, rescue.rs. *)
From Coq Require Import String List Bool Arith ZArith Lia.
From Verif Require Import Model.FieldTrait Model.Circuits Model.Num Model.Boolean Model.Curve Model.Util Model.Rescue Model.RescueGadget
  Spec.SystemSpec Spec.SizeSpec Proofs.SystemP Proofs.RecursiveSystemP.
Import ListNotations.
Open Scope list_scope. Open Scope Z_scope.
Notation length := List.length.

Section Uses.
  Context {F : Field}.
  (** the result, the wires and the constraints are related by [Q] *)
  Definition uses {A} (p : CS F A) (Q : A -> Z -> Z -> Prop) : Prop :=
    forall ran s s' a, lay ran p s = Some (s', Ok a) -> Q a (taken s' - taken s) (lines s' - lines s).
  Definition upto {A} (w l : Z) : A -> Z -> Z -> Prop := fun _ w' l' => w' <= w /\ l' <= l.

  Lemma uses_weaken {A} (p : CS F A) (Q R : A -> Z -> Z -> Prop) : uses p Q -> (forall a w l, Q a w l -> R a w l) -> uses p R.
  Proof. intros H HR ran s s' a E. apply HR, (H _ _ _ _ E). Qed.
  Lemma uses_adds {A} (p : CS F A) w l : uses p (upto w l) -> adds_at_most p w l.
  Proof. intros H ran s s' a E. destruct (H _ _ _ _ E). lia. Qed.
  Lemma adds_uses {A} (p : CS F A) w l : adds_at_most p w l -> uses p (upto w l).
  Proof. intros H ran s s' a E. destruct (H _ _ _ _ E). unfold upto. lia. Qed.
  Lemma uses_bind {A B} (m : CS F A) (f : A -> CS F B) Q R : uses m R ->
    (forall a w l, R a w l -> uses (f a) (fun b w' l' => Q b (w + w') (l + l'))) -> uses (bind m f) Q.
  Proof.
    intros H1 H2 ran s s' b E. apply lay_bind in E. destruct E as (s1 & a & E1 & E2). pose proof (H2 _ _ _ (H1 _ _ _ _ E1) _ _ _ _ E2) as H. cbv beta in H.
    replace (taken s' - taken s) with (taken s1 - taken s + (taken s' - taken s1)) by lia. replace (lines s' - lines s) with (lines s1 - lines s + (lines s' - lines s1)) by lia. exact H.
  Qed.
  Lemma uses_ns {A} n (m : CS F A) Q : uses m Q -> uses (namespace n m) Q.
  Proof. intros H ran s s' a E. rewrite lay_ns in E. exact (H _ _ _ _ E). Qed.
  Lemma uses_ret {A} (a : A) (Q : A -> Z -> Z -> Prop) : Q a 0 0 -> uses (ret a) Q.
  Proof. intros H ran s s' b E. unfold ret in E. cbn [lay] in E. assert (s = s') as <- by congruence. assert (a = b) as <- by congruence. rewrite !Z.sub_diag. exact H. Qed.
  Lemma uses_panic {A} Q : uses (A := A) Panic Q.
  Proof. intros ran s s' b E. discriminate E. Qed.
  Lemma uses_fail {A} e Q : uses (A := A) (Ret (Err e)) Q.
  Proof. intros ran s s' b E. cbn [lay] in E. congruence. Qed.
  Lemma taken_wire (s : layout F) v : taken (fst (lay_wire s v)) = taken s + 1 /\ lines (fst (lay_wire s v)) = lines s.
  Proof. unfold lay_wire, taken, lines. destruct (l_half s) eqn:E; cbn [fst l_gates l_half l_lcs]; rewrite ?E; lia. Qed.
  Lemma uses_allocb {A} s v (f : _ -> CS F A) Q : (forall p, uses (f p) (fun b w l => Q b (1 + w) l)) -> uses (bind (alloc s v) f) Q.
  Proof.
    intros H ran s0 s' b E. unfold alloc, bind in E. cbn [pbind lay] in E. destruct (value_of ran fzero v) as [x|]; [|discriminate E].
    destruct (taken_wire s0 x) as [H1 H2]. destruct (lay_wire s0 x) as [s1 y]. cbn [fst] in *. pose proof (H _ _ _ _ _ E) as HH. cbv beta in HH.
    replace (taken s' - taken s0) with (1 + (taken s' - taken s1)) by lia. replace (lines s' - lines s0) with (lines s' - lines s1) by lia. exact HH.
  Qed.
  Lemma uses_inputb {A} s v (f : _ -> CS F A) Q : (forall p, uses (f p) (fun b w l => Q b (1 + w) (1 + l))) -> uses (bind (alloc_input s v) f) Q.
  Proof.
    intros H ran s0 s' b E. unfold alloc_input, bind in E. cbn [pbind lay] in E. destruct (value_of ran fzero v) as [x|]; [|discriminate E].
    assert (X : taken (fst (lay_input s0 x)) = taken s0 + 1 /\ lines (fst (lay_input s0 x)) = lines s0 + 1).
    { destruct (taken_wire s0 x) as [H1 H2]. unfold lay_input. destruct (lay_wire s0 x) as [s1 y]. cbn [fst] in *. unfold taken, lines in *. cbn [l_gates l_half l_lcs].
      rewrite app_length. cbn [length]. lia. }
    destruct X as [H1 H2]. destruct (lay_input s0 x) as [s1 y]. cbn [fst] in *. pose proof (H _ _ _ _ _ E) as HH. cbv beta in HH.
    replace (taken s' - taken s0) with (1 + (taken s' - taken s1)) by lia. replace (lines s' - lines s0) with (1 + (lines s' - lines s1)) by lia. exact HH.
  Qed.
  Lemma uses_lcb {A} lc (f : _ -> CS F A) Q : uses (f tt) (fun b w l => Q b w (1 + l)) -> uses (bind (enforce_zero lc) f) Q.
  Proof.
    intros H ran s s' b E. unfold enforce_zero, bind in E. cbn [pbind lay] in E. destruct (forallb _ lc); [|discriminate E].
    pose proof (H _ _ _ _ E) as HH. cbv beta in HH.
    assert (H1 : taken (lay_lc s lc) = taken s) by reflexivity. assert (H2 : lines (lay_lc s lc) = lines s + 1) by (unfold lines, lay_lc; cbn [l_lcs]; rewrite app_length; cbn [length]; lia).
    replace (taken s' - taken s) with (taken s' - taken (lay_lc s lc)) by lia. replace (lines s' - lines s) with (1 + (lines s' - lines (lay_lc s lc))) by lia. exact HH.
  Qed.
  Lemma uses_mulb {A} s v (f : _ -> CS F A) Q : (forall x y z st, uses (f (x, y, z, st)) (fun b w l => Q b (2 + w) l)) -> uses (bind (multiply s v) f) Q.
  Proof.
    intros H ran s0 s' b E. unfold multiply, bind in E. cbn [pbind lay] in E. destruct (value_of ran _ v) as [[[x y] z]|]; [|discriminate E].
    pose proof (H _ _ _ _ _ _ _ _ E) as HH. cbv beta in HH.
    assert (H1 : taken (lay_gate s0 x y z) = taken s0 + 2) by (unfold taken, lay_gate; cbn [l_gates l_half]; lia). assert (H2 : lines (lay_gate s0 x y z) = lines s0) by reflexivity.
    replace (taken s' - taken s0) with (2 + (taken s' - taken (lay_gate s0 x y z))) by lia. replace (lines s' - lines s0) with (lines s' - lines (lay_gate s0 x y z)) by lia. exact HH.
  Qed.
  Lemma uses_lc lc (Q : unit -> Z -> Z -> Prop) : Q tt 0 1 -> uses (enforce_zero lc) Q.
  Proof.
    intros H ran s s' b E. unfold enforce_zero in E. cbn [lay] in E. destruct (forallb _ lc); [|discriminate E].
    assert (lay_lc s lc = s') as <- by (unfold ret in E; cbn [lay] in E; congruence). destruct b.
    assert (H1 : taken (lay_lc s lc) = taken s) by reflexivity. assert (H2 : lines (lay_lc s lc) = lines s + 1) by (unfold lines, lay_lc; cbn [l_lcs]; rewrite app_length; cbn [length]; lia).
    rewrite H1, H2. replace (taken s - taken s) with 0 by lia. replace (lines s + 1 - lines s) with 1 by lia. exact H.
  Qed.
  Lemma uses_assertb {A} b (f : unit -> CS F A) Q : (b = true -> uses (f tt) Q) -> uses (bind (assert_ b) f) Q.
  Proof. intro H. destruct b; [|apply uses_panic]. change (uses (f tt) Q). auto. Qed.
  Lemma uses_unwrapb {A B} (o : option B) (f : B -> CS F A) Q : (forall x, o = Some x -> uses (f x) Q) -> uses (bind (unwrap o) f) Q.
  Proof. intro H. destruct o as [x|]; [|apply uses_panic]. change (uses (f x) Q). auto. Qed.
  Lemma uses_nsb {A B} n (m : CS F A) (f : A -> CS F B) Q R : uses m R ->
    (forall a w l, R a w l -> uses (f a) (fun b w' l' => Q b (w + w') (l + l'))) -> uses (bind (namespace n m) f) Q.
  Proof. intro H. apply uses_bind, uses_ns, H. Qed.
  Lemma uses_mapM {A B} (f : A -> CS F B) (P : B -> Prop) w l xs : (forall x, In x xs -> uses (f x) (fun b w' l' => w' <= w /\ l' <= l /\ P b)) ->
    uses (mapM f xs) (fun bs w' l' => w' <= w * Z.of_nat (length xs) /\ l' <= l * Z.of_nat (length xs) /\ length bs = length xs /\ Forall P bs).
  Proof.
    induction xs as [|x xs IH]; intro H; cbn [mapM].
    - apply uses_ret. cbn [length]. repeat split; try lia. constructor.
    - eapply uses_bind; [apply H; left; reflexivity|]. intros b w1 l1 (E1 & E2 & E3). eapply uses_bind; [apply IH; intros; apply H; right; assumption|].
      intros bs w2 l2 (E4 & E5 & E6 & E7). apply uses_ret. cbn [length]. repeat split; try lia. constructor; assumption.
  Qed.
  Lemma uses_foldM {A B} (f : B -> A -> CS F B) (P : B -> Prop) w l xs : (forall b x, In x xs -> P b -> uses (f b x) (fun b w' l' => w' <= w /\ l' <= l /\ P b)) ->
    forall b, P b -> uses (foldM f xs b) (fun b w' l' => w' <= w * Z.of_nat (length xs) /\ l' <= l * Z.of_nat (length xs) /\ P b).
  Proof.
    induction xs as [|x xs IH]; intros H b Hb; cbn [foldM].
    - apply uses_ret. cbn [length]. repeat split; try lia. exact Hb.
    - eapply uses_bind; [apply H; [left; reflexivity|exact Hb]|]. intros b1 w1 l1 (E1 & E2 & E3). eapply uses_weaken; [apply IH; [intros; apply H; [right|]; assumption|exact E3]|].
      cbv beta. intros b2 w2 l2 (E4 & E5 & E6). cbn [length]. repeat split; try lia. exact E6.
  Qed.
End Uses.
Arguments uses : simpl never.

Ltac ulet :=
  lazymatch goal with
  | |- uses (let x := ?v in @?b x) ?Q => let a := fresh x in pose (a := v); change (uses (b a) Q); clearbody a; cbv beta
  end.
Ltac ustep :=
  lazymatch goal with
  | |- uses (let _ := _ in _) _ => ulet
  | |- uses (bind (multiply _ _) _) _ => apply uses_mulb; intros ? ? ? ?; cbv beta match
  | |- uses (bind (alloc _ _) _) _ => apply uses_allocb; intros [? ?]; cbv beta match
  | |- uses (bind (alloc_input _ _) _) _ => apply uses_inputb; intros [? ?]; cbv beta match
  | |- uses (bind (enforce_zero _) _) _ => apply uses_lcb
  | |- uses (enforce_zero _) _ => apply uses_lc
  | |- uses (bind (assert_ _) _) _ => apply uses_assertb; intro
  | |- uses (bind (unwrap _) _) _ => apply uses_unwrapb; intros ? ?
  | |- uses (namespace _ _) _ => apply uses_ns
  | |- uses (ret _) _ => apply uses_ret
  | |- uses Panic _ => apply uses_panic
  end.
(** a call with the bound [L] *)
Ltac ucall L := first [eapply uses_nsb; [apply L|] | eapply uses_bind; [apply L|]]; cbv beta.
Ltac uend := unfold upto in *; lia.

Section Gadgets.
  Context {F : Field}.
  Variable one : Var.
  Local Notation uses := (@uses F _).

  Lemma U_num_alloc v : uses (num_alloc v) (upto 1 0).
  Proof. unfold num_alloc. repeat ustep. uend. Qed.
  Lemma U_num_mul (a b : AllocatedNum F) : uses (num_mul a b) (upto 2 2).
  Proof. unfold num_mul. repeat ustep. uend. Qed.
  Lemma U_invert (a : AllocatedNum F) : uses (num_invert one a) (upto 3 3).
  Proof. unfold num_invert. repeat ustep. ucall U_num_alloc. intros. repeat ustep. uend. Qed.
  Lemma U_sqrt (a : AllocatedNum F) : uses (num_sqrt a) (upto 3 3).
  Proof. unfold num_sqrt. repeat ustep. ucall U_num_alloc. intros. repeat ustep. uend. Qed.
  Lemma U_comb_mul (a b : Combination F) : uses (comb_mul one a b) (upto 2 2).
  Proof. unfold comb_mul. repeat ustep. uend. Qed.
  Lemma U_pow_five x : uses (constrain_pow_five x) (upto 6 5).
  Proof. unfold constrain_pow_five. repeat ustep. uend. Qed.
  Lemma U_evaluate (a : Combination F) : uses (comb_evaluate one a) (upto 1 1).
  Proof.
    unfold comb_evaluate. destruct (any_allocated a).
    - ucall U_num_alloc. intros. repeat ustep. uend.
    - destruct (comb_value a); [|apply uses_fail]. change (uses (ret (n_constant f)) (upto 1 1)). ustep. uend.
  Qed.
  Lemma U_alpha (a : Combination F) : uses (comb_rescue_alpha one a) (upto 6 6).
  Proof.
    unfold comb_rescue_alpha. destruct (any_allocated a).
    - eapply (uses_bind _ _ _ (upto 6 6)); [|intros; ustep; uend]. unfold num_rescue_alpha. repeat ustep. ucall U_pow_five. intros [? ?] ? ? ?. repeat ustep. uend.
    - destruct (comb_value a); [|apply uses_fail]. cbn [ok_or_missing lift]. unfold bind, lift. cbn [pbind]. apply (uses_ret (F := F)). uend.
  Qed.
  Lemma U_invalpha (a : Combination F) : uses (comb_rescue_invalpha one a) (upto 6 6).
  Proof.
    unfold comb_rescue_invalpha. destruct (any_allocated a).
    - eapply (uses_bind _ _ _ (upto 6 6)); [|intros; ustep; uend]. unfold num_rescue_invalpha. repeat ustep. ucall U_pow_five. intros [? ?] ? ? ?. repeat ustep. uend.
    - destruct (comb_value a); [|apply uses_fail]. cbn [ok_or_missing lift]. unfold bind, lift. cbn [pbind]. apply (uses_ret (F := F)). uend.
  Qed.

  Lemma U_bit_alloc v : uses (bit_alloc v) (upto 2 2).
  Proof. unfold bit_alloc. repeat ustep. uend. Qed.
  Lemma U_bit_input v : uses (bit_alloc_input_unchecked v) (upto 1 1).
  Proof. unfold bit_alloc_input_unchecked. repeat ustep. uend. Qed.
  Lemma U_bit_check b : uses (bit_check b) (upto 2 3).
  Proof. unfold bit_check. repeat ustep. uend. Qed.
  Lemma U_unpack (H256 : forall x : F, length (fe_bits x) = 256%nat) (n : Num F) :
    uses (unpack_fe one n) (fun l w' l' => w' <= 512 /\ l' <= 513 /\ length l = 256%nat).
  Proof.
    assert (HL : length (match n_value n with Some value => map Some (fe_bits value) | None => repeat None 256 end) = 256%nat)
      by (destruct (n_value n); [rewrite map_length; apply H256|apply repeat_length]).
    unfold unpack_fe. cbv zeta. eapply uses_bind; [apply (uses_mapM _ (fun _ => True) 2 2); intros; ustep; eapply uses_weaken; [apply U_bit_alloc|intros; uend]|].
    cbv beta. rewrite HL. intros l w1 l1 (E1 & E2 & E3 & _). repeat ustep. lia.
  Qed.

  (** rescue.rs *)
  Lemma U_sbox r (st : list (Combination F)) : (length st <= 13)%nat ->
    uses (sbox_layer one r st) (fun l w' l' => w' <= 78 /\ l' <= 78 /\ length l = length st).
  Proof.
    intro H. unfold sbox_layer. eapply uses_weaken; [apply (uses_mapM _ (fun _ => True) 6 6)|].
    - intros x _. destruct (_ =? _)%nat; ustep; (eapply uses_weaken; [first [apply U_alpha|apply U_invalpha]|intros; uend]).
    - cbv beta. intros l w1 l1 (E1 & E2 & E3 & _). lia.
  Qed.
  Lemma zip_length {A B D} (f : A -> B -> D) xs : forall ys, length (zip_with f xs ys) = Nat.min (length xs) (length ys).
  Proof. induction xs; intros [|y ys]; cbn [zip_with length]; auto. rewrite IHxs. reflexivity. Qed.
  Lemma U_rounds mds keys : (length mds <= 13)%nat -> forall r st, (length st <= 13)%nat ->
    uses (g_rounds one mds r keys st) (fun l w' l' => w' <= 78 * Z.of_nat (length keys) /\ l' <= 78 * Z.of_nat (length keys) /\ (length l <= 13)%nat).
  Proof.
    intro Hm. induction keys as [|key keys IH]; intros r st Hs; cbn [g_rounds]; [ustep; cbn [length]; lia|].
    ucall U_sbox; [exact Hs|]. intros mid w1 l1 (E1 & E2 & E3). eapply uses_weaken; [apply IH; unfold mds_layer; rewrite zip_length; lia|].
    cbv beta. cbn [length]. intros. lia.
  Qed.
  Lemma U_rescue_f mds keys st : (length mds <= 13)%nat -> (length st <= 13)%nat -> (length keys <= 21)%nat ->
    uses (g_rescue_f one st mds keys) (fun l w' l' => w' <= 1560 /\ l' <= 1560 /\ (length l <= 13)%nat).
  Proof.
    intros Hm Hs Hk. unfold g_rescue_f. destruct keys as [|key keys]; [ustep; lia|]. cbn [length] in Hk.
    eapply uses_weaken; [apply U_rounds; [exact Hm|rewrite zip_length; lia]|]. cbv beta. intros. lia.
  Qed.
  Lemma U_evaluate_all (st : list (Combination F)) : (length st <= 13)%nat -> uses (evaluate_all one st) (upto 13 13).
  Proof.
    intro H. unfold evaluate_all. eapply uses_weaken; [apply (uses_mapM _ (fun _ => True) 1 1); intros; ustep; eapply uses_weaken; [apply U_evaluate|intros; uend]|].
    cbv beta. intros. uend.
  Qed.
  Lemma U_key_rounds mds cs_ : (length mds <= 13)%nat -> forall r st, (length st <= 13)%nat ->
    uses (g_key_rounds one mds r cs_ st) (fun l w' l' => w' <= 91 * Z.of_nat (length cs_) /\ l' <= 91 * Z.of_nat (length cs_) /\ length l = length cs_).
  Proof.
    intro Hm. induction cs_ as [|c cs_ IH]; intros r st Hs; cbn [g_key_rounds]; [ustep; cbn [length]; lia|].
    ucall U_sbox; [exact Hs|]. intros mid w1 l1 (E1 & E2 & E3). cbv zeta.
    assert (HL : (length (mds_layer mds mid c) <= 13)%nat) by (unfold mds_layer; rewrite zip_length; lia). set (st' := mds_layer mds mid c) in *. clearbody st'.
    ucall U_evaluate_all; [exact HL|]. intros key w2 l2 E4. ucall IH; [exact HL|]. intros keys w3 l3 (E5 & E6 & E7). ustep. cbn [length]. uend.
  Qed.
  (** a transcript; the number of values it holds *)
  Definition held (t : RescueGadget F) : Z :=
    match g_sponge t with GAbsorbing input => Z.of_nat (length (filter (fun o => match o with Some _ => true | None => false end) input)) | GSqueezing _ => 0 end.
  Record gad (t : RescueGadget F) : Prop := {
    gad_state : (length (g_state t) <= 13)%nat; gad_mds : (length (g_mds t) <= 13)%nat; gad_keys : (length (g_keys t) <= 21)%nat;
    gad_sponge : match g_sponge t with GAbsorbing input => length input = 12%nat | GSqueezing _ => True end }.
  Lemma held_ge t : 0 <= held t.
  Proof. unfold held. destruct (g_sponge t); lia. Qed.
  Lemma U_gadget_new : uses (gadget_new one) (fun t w l => w <= 1833 /\ l <= 1833 /\ gad t /\ held t = 0).
  Proof.
    unfold gadget_new. cbv zeta. eapply (uses_bind _ _ _ (fun keys w l => w <= 1833 /\ l <= 1833 /\ length keys = 21%nat)).
    - unfold g_generate_key_schedule. cbv zeta. assert (HM : (length (@generate_mds_matrix F) <= 13)%nat) by (unfold generate_mds_matrix; rewrite map_length, seq_length; unfold RESCUE_M; lia).
      set (mds := generate_mds_matrix) in *. clearbody mds.
      match goal with |- context [evaluate_all one ?x] => assert (HL : (length x <= 13)%nat) by (rewrite zip_length, !repeat_length; unfold RESCUE_M; lia); set (st := x) in * end. clearbody st.
      ucall U_evaluate_all; [exact HL|]. intros key w1 l1 E1. ucall U_key_rounds; [exact HM|exact HL|]. rewrite repeat_length. unfold RESCUE_ROUNDS.
      intros keys w2 l2 (E2 & E3 & E4). ustep. cbn [length]. uend.
    - intros keys w l (E1 & E2 & E3). ustep. split; [lia|]. split; [lia|]. split; [|reflexivity].
      constructor; cbn [g_state g_mds g_keys g_sponge]; [unfold RESCUE_M; rewrite repeat_length; lia|unfold generate_mds_matrix; rewrite map_length, seq_length; unfold RESCUE_M; lia|lia|reflexivity].
  Qed.
  Lemma add_into_length (st : list (Combination F)) : forall p, length (g_add_into st p) = length st.
  Proof. induction st; intros [|x p]; cbn [g_add_into length]; auto. Qed.
  Lemma U_duplex t input : gad t -> uses (g_rescue_duplex one (g_state t) input (g_mds t) (g_keys t)) (fun l w' l' => w' <= 1561 /\ l' <= 1561 /\ (length l <= 13)%nat).
  Proof.
    intros [H1 H2 H3 _]. unfold g_rescue_duplex. eapply (uses_nsb _ _ _ _ (upto 1 1)).
    - unfold g_pad. ucall U_num_alloc. intros. repeat ustep. uend.
    - intros p w l E. eapply uses_weaken; [apply U_rescue_f; [exact H2|rewrite add_into_length; exact H1|exact H3]|]. cbv beta. intros. uend.
  Qed.
  Lemma fill_held {A} (v : A) input : match fill v input with
    | Some input' => length input' = length input /\
        length (filter (fun o => match o with Some _ => true | None => false end) input') = S (length (filter (fun o => match o with Some _ => true | None => false end) input))
    | None => length (filter (fun o => match o with Some _ => true | None => false end) input) = length input end.
  Proof.
    induction input as [|[e|] input IH]; cbn [fill filter length]; [reflexivity| |split; reflexivity].
    destruct (fill v input) as [i'|]; cbn [option_map filter length]; [|lia]. destruct IH as [IH1 IH2]. rewrite IH1, IH2. split; reflexivity.
  Qed.
  (** a value costs 131, paid when it is absorbed: a full block of 12 pays for the permutation *)
  Lemma U_absorb t v : gad t -> uses (gadget_absorb one t v) (fun t' w l => w + 131 * held t' <= 131 + 131 * held t /\ l + 131 * held t' <= 131 + 131 * held t /\ gad t').
  Proof.
    intro H. unfold gadget_absorb. pose proof (gad_sponge _ H) as HS. unfold held at 2 4. destruct (g_sponge t) as [input|sq] eqn:E.
    - pose proof (fill_held v input) as HF. destruct (fill v input) as [i'|].
      + ustep. destruct HF as [HF1 HF2]. unfold held. cbn [g_sponge]. rewrite HF2. split; [lia|]. split; [lia|]. destruct H. constructor; cbn [g_state g_mds g_keys g_sponge]; auto. congruence.
      + ucall (U_duplex t input H). intros st w l (E1 & E2 & E3). ustep. rewrite HF, HS. unfold held. cbn [g_sponge g_sponge_absorb].
        change (length (filter _ (Some v :: repeat None (SPONGE_RATE - 1)))) with 1%nat.
        split; [lia|]. split; [lia|]. destruct H. constructor; cbn [g_state g_mds g_keys g_sponge g_sponge_absorb]; auto.
    - ustep. unfold held. cbn [g_sponge g_sponge_absorb]. change (length (filter _ (Some v :: repeat None (SPONGE_RATE - 1)))) with 1%nat.
      split; [lia|]. split; [lia|]. destruct H. constructor; cbn [g_state g_mds g_keys g_sponge g_sponge_absorb]; auto.
  Qed.
  Lemma list_set_length {A} (l : list A) i x : (i < length l)%nat -> length (list_set l i x) = length l.
  Proof. intro H. unfold list_set. rewrite app_length, firstn_length. cbn [length]. rewrite skipn_length. lia. Qed.
  Lemma U_sq1 fuel t sq i : gad t -> g_sponge t = GSqueezing sq -> first_unsqueezed sq 0 = Some i ->
    uses (gadget_squeeze_loop one (S fuel) t) (fun r w l => w <= 1 /\ l <= 1 /\ gad (snd r) /\ held (snd r) = 0).
  Proof.
    intros H E Ei. cbn [gadget_squeeze_loop]. rewrite E, Ei.
    ustep. match goal with H : nth_error _ i = Some _ |- _ => rename H into HN end. ucall U_num_alloc. intros o w l E1. repeat ustep. cbn [snd].
    split; [uend|]. split; [uend|]. split; [|reflexivity]. assert (HI : (i < length (g_state t))%nat) by (apply nth_error_Some; congruence).
    destruct H; constructor; cbn [g_state g_mds g_keys g_sponge]; auto. rewrite list_set_length; assumption.
  Qed.
  Lemma U_sq2 fuel t input : gad t -> g_sponge t = GAbsorbing input ->
    uses (gadget_squeeze_loop one (S (S fuel)) t) (fun r w l => w <= 1562 /\ l <= 1562 /\ gad (snd r) /\ held (snd r) = 0).
  Proof.
    intros H E. change (gadget_squeeze_loop one (S (S fuel)) t) with (match g_sponge t with
      | GAbsorbing input => bind (namespace "rescue" (g_rescue_duplex one (g_state t) input (g_mds t) (g_keys t))) (fun st => gadget_squeeze_loop one (S fuel)
              (mkGadget (GSqueezing (repeat false SPONGE_RATE)) st (g_mds t) (g_keys t)))
      | GSqueezing squeezed => match first_unsqueezed squeezed 0 with
            | Some i =>
                bind (unwrap (nth_error (g_state t) i)) (fun entry =>
                bind (namespace "squeezed element" (num_alloc (ok_or_missing (comb_value entry)))) (fun out =>
                bind (enforce_zero (lc_sub_lc (num_lc out) (comb_lc one entry))) (fun _ =>
                ret (out, mkGadget (GSqueezing (list_set squeezed i true))
                            (list_set (g_state t) i (comb_from_num out)) (g_mds t) (g_keys t)))))
            | None =>
                gadget_squeeze_loop one (S fuel)
                  (mkGadget (GAbsorbing g_empty) (g_state t) (g_mds t) (g_keys t))
            end end). rewrite E.
    ucall (U_duplex t input H). intros st w l (E1 & E2 & E3).
    eapply uses_weaken; [apply (U_sq1 fuel _ (repeat false SPONGE_RATE) 0%nat); [destruct H; constructor; cbn [g_state g_mds g_keys g_sponge]; auto|reflexivity|reflexivity]|].
    cbv beta. intros a w' l' (E4 & E5 & E6 & E7). split; [lia|]. split; [lia|]. auto.
  Qed.
  Lemma U_squeeze t : gad t -> uses (gadget_squeeze one t) (fun r w l => w <= 1562 /\ l <= 1562 /\ gad (snd r) /\ held (snd r) = 0).
  Proof.
    intro H. unfold gadget_squeeze. destruct (g_sponge t) as [input|sq] eqn:E; [exact (U_sq2 1 t input H E)|].
    destruct (first_unsqueezed sq 0) as [i|] eqn:Ei.
    - eapply uses_weaken; [exact (U_sq1 2 t sq i H E Ei)|]. cbv beta. intros a w' l' (E4 & E5 & E6 & E7). split; [lia|]. split; [lia|]. auto.
    - change (gadget_squeeze_loop one 3 t) with (match g_sponge t with
      | GAbsorbing input => bind (namespace "rescue" (g_rescue_duplex one (g_state t) input (g_mds t) (g_keys t))) (fun st => gadget_squeeze_loop one 2
              (mkGadget (GSqueezing (repeat false SPONGE_RATE)) st (g_mds t) (g_keys t)))
      | GSqueezing squeezed => match first_unsqueezed squeezed 0 with
            | Some i =>
                bind (unwrap (nth_error (g_state t) i)) (fun entry =>
                bind (namespace "squeezed element" (num_alloc (ok_or_missing (comb_value entry)))) (fun out =>
                bind (enforce_zero (lc_sub_lc (num_lc out) (comb_lc one entry))) (fun _ =>
                ret (out, mkGadget (GSqueezing (list_set squeezed i true))
                            (list_set (g_state t) i (comb_from_num out)) (g_mds t) (g_keys t)))))
            | None =>
                gadget_squeeze_loop one 2
                  (mkGadget (GAbsorbing g_empty) (g_state t) (g_mds t) (g_keys t))
            end end). rewrite E, Ei.
      apply (U_sq2 0 _ g_empty); [destruct H; constructor; cbn [g_state g_mds g_keys g_sponge]; auto|reflexivity].
  Qed.
End Gadgets.

(** Threads that own disjoint chunks give the same result under every schedule. *)
From Coq Require Import List Arith Lia.
From Verif Require Import Model.Threads.
Import ListNotations.

Section Scope.
  Context {S : Type}.
  Definition t_result (t : thread S) : S := fold_left (fun s f => f s) (t_todo t) (t_chunk t).
  Lemma t_step_result t : t_result (t_step t) = t_result t.
  Proof. destruct t as [s [|f fs]]; reflexivity. Qed.
  Lemma map_at_index {A B} (g : A -> B) f (l : list A) i : (forall x, g (f x) = g x) -> map g (at_index i f l) = map g l.
  Proof.
    intro H. revert i. induction l as [|x l IH]; intros [|i]; cbn; try reflexivity; [rewrite H; reflexivity|rewrite IH; reflexivity].
  Qed.
  Lemma scope_eq sched (ts : list (thread S)) : scope sched ts = map t_result ts.
  Proof.
    unfold scope. change (map t_result (fold_left (fun ts i => at_index i t_step ts) sched ts) = map t_result ts).
    revert ts. induction sched as [|i sched IH]; intro ts; [reflexivity|]. cbn [fold_left]. rewrite IH.
    apply map_at_index. exact t_step_result.
  Qed.
End Scope.

Lemma at_index_length {A} i f (l : list A) : length (at_index i f l) = length l.
Proof. revert i. induction l as [|x l IH]; intros [|i]; cbn; congruence. Qed.
Lemma at_index_nth {A} i f (l : list A) d j : nth j (at_index i f l) d = if Nat.eqb j i then (if Nat.ltb i (length l) then f (nth i l d) else d) else nth j l d.
Proof.
  revert i j. induction l as [|x l IH]; intros i j.
  - destruct i, j; cbn; try reflexivity. destruct (Nat.eqb j i); reflexivity.
  - destruct i as [|i], j as [|j]; cbn; try reflexivity. rewrite IH.
    destruct (Nat.eqb j i); [|reflexivity]. change (S i <? S (length l)) with (i <? length l). reflexivity.
Qed.
Lemma at_index_nth_eq {A} i f (l : list A) d : i < length l -> nth i (at_index i f l) d = f (nth i l d).
Proof. intro H. rewrite at_index_nth, Nat.eqb_refl. apply Nat.ltb_lt in H. rewrite H. reflexivity. Qed.
Lemma at_index_nth_neq {A} i f (l : list A) d j : j <> i -> nth j (at_index i f l) d = nth j l d.
Proof. intro H. rewrite at_index_nth. apply Nat.eqb_neq in H. rewrite H. reflexivity. Qed.

(** chunks *)
Section Chunks.
  Context {A : Type}.
  Lemma chunks_fuel_concat fuel n (l : list A) : 0 < n -> length l <= fuel -> concat (chunks_fuel fuel n l) = l.
  Proof.
    intro Hn. revert l. induction fuel as [|fuel IH]; intros [|x l] H; cbn; try reflexivity; [cbn in H; lia|].
    rewrite IH, firstn_skipn; [reflexivity|]. rewrite skipn_length. cbn [length] in *. lia.
  Qed.
  Lemma chunks_concat n (l : list A) : 0 < n -> concat (chunks n l) = l.
  Proof. intro H. apply chunks_fuel_concat; [exact H|apply le_n]. Qed.
  Lemma chunks_nil n : chunks n (@nil A) = [].
  Proof. reflexivity. Qed.
  Lemma chunks_fuel_irrel f1 f2 n (l : list A) : 0 < n -> length l <= f1 -> length l <= f2 -> chunks_fuel f1 n l = chunks_fuel f2 n l.
  Proof.
    intro Hn. revert f2 l. induction f1 as [|f1 IH]; intros [|f2] [|x l] H1 H2; cbn [length] in *; try lia; try reflexivity.
    cbn [chunks_fuel]. f_equal. apply IH; rewrite skipn_length; cbn [length]; lia.
  Qed.
  Lemma chunks_cons n (l : list A) : 0 < n -> l <> [] -> chunks n l = firstn n l :: chunks n (skipn n l).
  Proof.
    intros Hn Hl. unfold chunks. destruct l as [|x l]; [congruence|]. cbn [length chunks_fuel]. f_equal.
    apply chunks_fuel_irrel; [exact Hn| |apply le_n]. rewrite skipn_length. cbn [length]. lia.
  Qed.
End Chunks.
(** Induction along the chunks of a list. *)
Lemma chunks_ind {A} n (P : list A -> Prop) : 0 < n -> P [] -> (forall l, l <> [] -> P (skipn n l) -> P l) -> forall l, P l.
Proof.
  intros Hn H0 HS l. remember (length l) as m eqn:Hm. assert (Hle : length l <= m) by lia. clear Hm. revert l Hle.
  induction m as [|m IH]; intros l H; [destruct l; [exact H0|cbn in H; lia]|].
  destruct l as [|x l]; [exact H0|]. apply HS; [discriminate|]. apply IH. rewrite skipn_length. cbn [length] in *. lia.
Qed.
Lemma chunks_ind2 {A B} n (P : list A -> list B -> Prop) : 0 < n -> P [] [] ->
  (forall l l', l <> [] -> l' <> [] -> length l = length l' -> P (skipn n l) (skipn n l') -> P l l') ->
  forall l l', length l = length l' -> P l l'.
Proof.
  intros Hn H0 HS l l' HL. remember (length l) as m eqn:Hm. assert (Hle : length l <= m) by lia. symmetry in HL. rewrite Hm in HL. clear Hm. revert l l' Hle HL.
  induction m as [|m IH]; intros l l' H HL; [destruct l; [destruct l'; [exact H0|discriminate HL]|cbn in H; lia]|].
  destruct l as [|x l]; [destruct l'; [exact H0|discriminate HL]|]. destruct l' as [|x' l']; [discriminate HL|].
  apply HS; [discriminate|discriminate|symmetry; exact HL|].
  apply IH; rewrite !skipn_length; cbn [length] in *; lia.
Qed.

(** A pairwise operation on two equally long slices, chunk by chunk. *)
Lemma fold_writes {A B} (op : A -> B -> A) (b : list B) : forall pre (a : list A),
  fold_left (fun s f => f s) (map (fun '(i, y) (a : list A) => at_index i (fun x => op x y) a) (combine (seq (length pre) (length a)) b)) (pre ++ a)
  = pre ++ map (fun '(x, y) => op x y) (combine a b) ++ skipn (length b) a.
Proof.
  induction b as [|y b IH]; intros pre a; [rewrite combine_nil; destruct a; reflexivity|].
  destruct a as [|x a]; [reflexivity|]. cbn [length seq combine map fold_left].
  assert (H : at_index (length pre) (fun x => op x y) (pre ++ x :: a) = (pre ++ [op x y]) ++ a).
  { clear. induction pre as [|z pre IH]; cbn; [reflexivity|rewrite IH; reflexivity]. }
  rewrite H. specialize (IH (pre ++ [op x y]) a).
  rewrite app_length, Nat.add_1_r in IH. cbn [length] in IH. rewrite IH, <- app_assoc. reflexivity.
Qed.
Lemma fold_writes0 {A B} (op : A -> B -> A) (a : list A) (b : list B) :
  fold_left (fun s f => f s) (map (fun '(i, y) (a : list A) => at_index i (fun x => op x y) a) (combine (seq 0 (length a)) b)) a
  = map (fun '(x, y) => op x y) (combine a b) ++ skipn (length b) a.
Proof. exact (fold_writes op b [] a). Qed.

Lemma combine_firstn_skipn {A B} n (a : list A) (b : list B) :
  combine a b = combine (firstn n a) (firstn n b) ++ combine (skipn n a) (skipn n b).
Proof.
  revert a b. induction n as [|n IH]; intros a b; [reflexivity|]. destruct a as [|x a]; [reflexivity|].
  destruct b as [|y b]; [cbn; rewrite combine_nil; reflexivity|]. cbn. f_equal. apply IH.
Qed.
(** zipping two slices chunk by chunk, the second at least as long as the first *)
Lemma unchunk_zip {A B} (op : A -> B -> A) n (th : list A * list B -> list A) :
  0 < n ->
  (forall a b, th (a, b) = map (fun '(x, y) => op x y) (combine a b) ++ skipn (length b) a) ->
  forall (a : list A) (b : list B), length a <= length b ->
  unchunk n a (map th (combine (chunks n a) (chunks n b))) = map (fun '(x, y) => op x y) (combine a b).
Proof.
  intros Hn Hth. refine (chunks_ind n _ Hn _ _); [|intros a Ha IH]; intros b HL.
  - rewrite chunks_nil. reflexivity.
  - assert (Hb : b <> []). { intros ->. destruct a; [congruence|cbn in HL; lia]. }
    unfold unchunk in *. rewrite (chunks_cons n a Hn Ha), (chunks_cons n b Hn Hb). cbn [combine map length app skipn concat].
    rewrite IH by (rewrite !skipn_length; lia). rewrite Hth.
    rewrite (combine_firstn_skipn n a b), map_app.
    f_equal. rewrite skipn_all2; [apply app_nil_r|]. rewrite !firstn_length. lia.
Qed.

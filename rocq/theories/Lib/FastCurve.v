(** Fast multiples of a point of y^2 = x^3 + b in projective coordinates, on
    the arithmetic of Lib/Fast63.v (kernel-computed certificates only; nothing
    here models the code). *)
From Coq Require Import ZArith List Uint63.
From Verif Require Import Lib.Fast63.
Import ListNotations.
Open Scope Z_scope.

Section Fast.
  Variables (N : Z) (n : list int) (ninv : int).
  Notation fm := (fmul n ninv).
  Notation fa := fadd.
  Variables m1 b3 mb3 : list int. (* the Montgomery forms of -1, 3b, -3b *)
  Definition trip : Type := list int * list int * list int.
  Definition tadd (P Q : trip) : trip :=
    let '(x1, y1, z1) := P in let '(x2, y2, z2) := Q in
    let xx := fm x1 x2 in let yy := fm y1 y2 in let zz := fm z1 z2 in
    let xy := fa (fm x1 y2) (fm x2 y1) in
    let yz := fa (fm y1 z2) (fm y2 z1) in
    let xz := fm b3 (fa (fm x1 z2) (fm x2 z1)) in
    let u := fa yy (fm mb3 zz) in
    let w := fa yy (fm b3 zz) in
    let x3 := fa xx (fa xx xx) in
    (fa (fm xy u) (fm m1 (fm yz xz)), fa (fm u w) (fm x3 xz), fa (fm yz w) (fm xy x3)).
  Fixpoint tmul (e : positive) (P : trip) : trip :=
    match e with
    | xH => P
    | xO e => let t := tmul e P in tadd t t
    | xI e => let t := tmul e P in tadd (tadd t t) P
    end.
End Fast.

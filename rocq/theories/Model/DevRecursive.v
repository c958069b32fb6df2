(** src/dev.rs: [recursive_is_satisfied] (291-361) and [recursive_constraint_count]
    (728-756), with the driver [Basic]. *)
From Coq Require Import String List Bool Arith ZArith.
From Verif Require Import Model.FieldTrait Model.Circuits Model.Boolean Model.Curve Model.Threads
  Model.Util Model.Params Model.Opening Model.Proofs Model.Recursion Model.RecursiveProof Model.Dev.
Import ListNotations.
Open Scope list_scope.
Open Scope nat_scope.
Open Scope out_scope.

(** the loop over the input bytes: dev.rs:348-358 *)
Definition input_elements (F : Field) (bytes : list Z) : list F :=
  flat_map (fun byte => map (fun i => if (Z.land (Z.shiftr byte (Z.of_nat i)) 1 =? 1)%Z then fone else fzero) (seq 0 8)) bytes.

(** [recursive_is_satisfied]: dev.rs:291-361.  The error of [verify_inner] becomes
    [SatisfactionError::Synthesis] (dev.rs:56-60). *)
Definition recursive_is_satisfied {E1 E2 : Curve} (cy : Cycle E1 E2) (M : Machine)
    (e1params : Params E1) (e2params : Params E2) (old_proof : option (RecursiveProof E2 E1))
    (circuit : BothCircuits E1 E2) (new_payload : list Z) : outcome (sat_result (Scalar E1)) :=
  prepared <~
    match old_proof with
    | Some old_proof =>
        r <~ verify_inner (swap cy) M old_proof e2params e1params (swap_circuits circuit) ;;
        match r with
        | Ok (_, newdeferred, l1, l2, forkvalues) => Done (Ok (newdeferred, l1, l2, forkvalues))
        | Err e => Done (Err e)
        end
    | None =>
        newdeferred <~ out_opt (deferred_dummy (p_k e2params)) ;;
        l1 <~ out_opt (leftovers_dummy M e2params) ;;
        l2 <~ out_opt (leftovers_dummy M e1params) ;;
        Done (Ok (newdeferred, l1, l2, repeat 0 (p_k e2params)))
    end ;;
  match prepared with
  | Err e => Done (SatErr (SynthesisErr e))
  | Ok (newdeferred, new_leftovers, old_leftovers, forkvalues) =>
      let vc := mkVC e2params None (inner_for cy (on_scalar1 circuit)) None new_payload
                  (Some forkvalues) (Some (leftovers_to_bytes old_leftovers)) (Some new_leftovers) (Some newdeferred) in
      let vc :=
        match old_proof with
        | Some old_proof =>
            mkVC (vc_params vc) (Some false) (vc_inner vc) (Some (as_old_proof cy old_proof)) (vc_new_payload vc)
              (vc_forkvalues vc) (vc_old_leftovers vc) (vc_new_leftovers vc) (vc_deferred vc)
        | None =>
            mkVC (vc_params vc) (Some true) (vc_inner vc) (vc_proof vc) (vc_new_payload vc)
              (vc_forkvalues vc) (vc_old_leftovers vc) (vc_new_leftovers vc) (vc_deferred vc)
        end in
      let inputs := new_payload ++ leftovers_to_bytes old_leftovers ++
                    leftovers_to_bytes new_leftovers ++ deferred_to_bytes newdeferred in
      out_opt (is_satisfied (as_circuit cy vc) (input_elements (Scalar E1) inputs))
  end.

(** [recursive_constraint_count]: dev.rs:728-756 *)
Definition recursive_constraint_count {E1 E2 : Curve} (cy : Cycle E1 E2) (e2params : Params E2)
    (circuit : BothCircuits E1 E2) (new_payload : list Z) : option (res (list (string * Counts))) :=
  let vc := mkVC e2params None (inner_for cy (on_scalar1 circuit)) None new_payload None None None None in
  constraint_count (as_circuit cy vc).

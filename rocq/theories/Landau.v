(* Model of pybinding/repository/graphene/utils.py: the energies of the Landau levels.  Real arithmetic. *)
From Coq Require Import Reals.
From Verif Require Import Base GrapheneModifiers GrapheneStrain.
Local Open Scope R_scope.

(** [math.sqrt]: ValueError below zero *)
Definition math_sqrt (x : R) : outcome R := if Rlt_dec x 0 then Throw else Ok (sqrt x).

(** utils.py:5-8 [landau_level]; a division by zero is ZeroDivisionError.  [vf] is in nm/s, the field in
    tesla, the length [lb] in metres. *)
Definition landau_level (magnetic_field : R) (n : Z) : outcome R :=
  if Req_EM_T magnetic_field 0 then Throw
  else obind (math_sqrt (hbar / magnetic_field)) (fun lb =>
       if Req_EM_T lb 0 then Throw
       else obind (math_sqrt (2 * IZR n)) (fun r => Ok (hbar * (g_vf * / 10 ^ 9) / lb * r))).

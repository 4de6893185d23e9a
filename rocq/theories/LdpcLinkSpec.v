(* Vocabulary of the property C77. *)
From Verif Require Import Base Cplx.
Open Scope Z_scope.

(* every soft value has the sign of its bit: positive for 0, negative for 1 *)
Definition right_signs (bs : list Z) (llrs : list R) : Prop := Forall2 (fun b x => (b = 0 /\ (0 < x)%R) \/ (b = 1 /\ (x < 0)%R)) bs llrs.

(* Model of puncturing / depuncturing, /repo/commpy/channelcoding/convcode.py 752-804. *)
From Verif Require Import Base.

(* convcode.py 767-774: the loop, with the Python locals idx and shift.  punct_vec[idx - shift*N] may be a
   negative index (Python wrap-around). *)
Fixpoint punct_loop {A} (pv : list Z) (idx shift : Z) (message : list A) : res (list A) :=
  match message with
  | [] => Ok []
  | item :: rest =>
      let N := Z.of_nat (length pv) in
      b <- py_get pv (idx - shift * N) ;;
      (* idx % N: N = 0 would be a ZeroDivisionError, but then py_get has already raised *)
      let shift' := if idx mod N =? 0 then shift + 1 else shift in
      r <- punct_loop pv (idx + 1) shift' rest ;;
      Ok (if b =? 1 then item :: r else r)
  end.

(* convcode.py 752-774 *)
Definition puncturing {A} (message : list A) (punct_vec : list Z) : res (list A) :=
  punct_loop punct_vec 0 0 message.

(* convcode.py 792-803: the loop over range(shouldbe); [n] is the number of remaining iterations *)
Fixpoint depunct_loop {A} (zero : A) (punctured : list A) (pv : list Z) (idx shift shift2 : Z) (n : nat) : res (list A) :=
  match n with
  | O => Ok []
  | S n' =>
      let N := Z.of_nat (length pv) in
      b <- py_get pv (idx - shift * N) ;;
      v <- (if b =? 1 then py_get punctured (idx - shift2) else Ok zero) ;;
      let shift2' := if b =? 1 then shift2 else shift2 + 1 in
      let shift' := if idx mod N =? 0 then shift + 1 else shift in
      r <- depunct_loop zero punctured pv (idx + 1) shift' shift2' n' ;;
      Ok (v :: r)
  end.

(* convcode.py 777-804; [zero] is the float 0.0 *)
Definition depuncturing {A} (zero : A) (punctured : list A) (punct_vec : list Z) (shouldbe : nat) : res (list A) :=
  depunct_loop zero punctured punct_vec 0 0 0 shouldbe.

(* Property C34: puncturing and depuncturing (convcode.py 752-804). *)
From Verif Require Import Base PunctModel PunctProofs.

(* Specification: position i is transmitted when the periodically repeated puncturing vector is 1 there;
   [before i] counts the transmitted positions smaller than i. *)
Definition transmitted (pv : list Z) (i : nat) : bool := nth (i mod length pv) pv 0 =? 1.
Definition before (pv : list Z) (i : nat) : nat := length (filter (transmitted pv) (seq 0 i)).

(* exactly the transmitted items, in order *)
Theorem C34_puncturing : forall (A : Type) (d : A) (pv : list Z) (m : list A), (1 <= length pv)%nat ->
  puncturing m pv = Ok (map (fun i => nth i m d) (filter (transmitted pv) (seq 0 (length m)))).
Proof. exact @puncturing_spec. Qed.
Print Assumptions C34_puncturing.

(* depuncturing places the received values at the transmitted positions and 0 elsewhere; it raises
   IndexError exactly when there are not enough received values *)
Theorem C34_depuncturing : forall (A : Type) (zero : A) (pv : list Z) (p : list A) (n : nat), (1 <= length pv)%nat ->
  depuncturing zero p pv n =
  if (before pv n <=? length p)%nat
  then Ok (map (fun i => if transmitted pv i then nth (before pv i) p zero else zero) (seq 0 n))
  else Err IndexError.
Proof. exact @depuncturing_spec. Qed.
Print Assumptions C34_depuncturing.

Theorem C34_depuncture_after_puncture : forall (A : Type) (zero : A) (pv : list Z) (m p : list A),
  (1 <= length pv)%nat -> puncturing m pv = Ok p ->
  length p = before pv (length m) /\
  depuncturing zero p pv (length m) =
    Ok (map (fun i => if transmitted pv i then nth i m zero else zero) (seq 0 (length m))).
Proof. exact @depuncture_puncture. Qed.
Print Assumptions C34_depuncture_after_puncture.

Theorem C34_puncture_after_depuncture : forall (A : Type) (zero : A) (pv : list Z) (p d : list A) (n : nat),
  (1 <= length pv)%nat -> length p = before pv n ->
  depuncturing zero p pv n = Ok d -> puncturing d pv = Ok p.
Proof. exact @puncture_depuncture. Qed.
Print Assumptions C34_puncture_after_depuncture.

Example C34_witness :
  puncturing [11; 12; 13; 14; 15; 16; 17] [1; 1; 1; 0] = Ok [11; 12; 13; 15; 16; 17] /\
  depuncturing 0 [11; 12; 13; 15; 16; 17] [1; 1; 1; 0] 7 = Ok [11; 12; 13; 0; 15; 16; 17] /\
  depuncturing 0 [11; 12] [1; 1; 1; 0] 7 = Err IndexError /\ before [1; 1; 1; 0] 7 = 6%nat.
Proof. repeat split; reflexivity. Qed.

(* an empty puncturing vector is rejected on any nonempty message *)
Theorem C34_empty_vector : forall (A : Type) (m : list A), m <> [] -> puncturing m [] = Err IndexError.
Proof. exact @puncturing_empty_vec. Qed.
Print Assumptions C34_empty_vector.
Example C34_empty_witness : puncturing [1] [] = Err IndexError.
Proof. reflexivity. Qed.
